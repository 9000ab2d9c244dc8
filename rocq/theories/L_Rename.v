(** Lemmas for C90. *)
From Coq Require Import Lia Permutation.
From Verif Require Import S_Graph S_Query S_Rename L_Str L_Graph L_Sort L_Filter L_Order L_Related L_Exec M_Schema.
From Verif Require Import M_Graph.
Close Scope Z_scope.

Section rename.
  Context (r : entity_id -> entity_id) (R : renaming r).
  Notation re := (rename_entity r). Notation rv := (rename_value r).

  Lemma eqb_renamed a b : str_eqb (r a) (r b) = str_eqb a b.
  Proof. apply Bool.eq_true_iff_eq. rewrite !str_eqb_eq. split; [apply (rn_distinct r R)|now intros ->]. Qed.
  Lemma letters_renamed a b : eq_ignore_case (r a) (r b) = eq_ignore_case a b.
  Proof. unfold eq_ignore_case. apply Bool.eq_true_iff_eq. rewrite !str_eqb_eq. apply (rn_letters r R). Qed.

  Definition rename_graph (g : graph) : graph :=
    {| g_nodes := map re (g_nodes g); g_map := map (fun p => (r (fst p), snd p)) (g_map g); g_types := g_types g; g_edges := g_edges g |}.
  Lemma assoc_renamed {A} k (m : list (str * A)) : assoc (r k) (map (fun p => (r (fst p), snd p)) m) = assoc k m.
  Proof. induction m as [|[k' a] m IH]; [reflexivity|]. cbn. rewrite eqb_renamed, IH. reflexivity. Qed.
  Lemma assoc_set_renamed {A} k a (m : list (str * A)) : assoc_set (r k) a (map (fun p => (r (fst p), snd p)) m) = map (fun p => (r (fst p), snd p)) (assoc_set k a m).
  Proof. induction m as [|[k' a'] m IH]; [reflexivity|]. cbn. rewrite eqb_renamed. destruct (str_eqb k' k); cbn; [reflexivity|now rewrite IH]. Qed.
  Lemma relationships_renamed m from f v :
    collect_relationships (map (fun p => (r (fst p), snd p)) m) from f (rv v) = collect_relationships m from f v.
  Proof.
    induction v using value_ind'; try reflexivity.
    - destruct r0; cbn; rewrite assoc_renamed; reflexivity.
    - cbn. induction H as [|v l H F IH]; [reflexivity|]. cbn. now rewrite H, IH.
  Qed.
  Lemma edges_renamed m n es : edges_from (map (fun p => (r (fst p), snd p)) m) n (map re es) = edges_from m n es.
  Proof.
    revert n. induction es as [|e es IH]; intros n; [reflexivity|]. cbn [map edges_from]. rewrite IH. f_equal. unfold entity_edges. cbn [rename_entity e_fields].
    induction (e_fields e) as [|[f v] fs IHf]; [reflexivity|]. cbn. now rewrite relationships_renamed, IHf.
  Qed.
  Lemma add_renamed g e : add_entity (rename_graph g) (re e) = (rename_graph (fst (add_entity g e)), rename_result r (fun u => u) (snd (add_entity g e))).
  Proof.
    unfold add_entity. cbn [rename_graph g_map g_nodes g_types g_edges rename_entity e_id e_type]. rewrite assoc_renamed, assoc_set_renamed, map_length.
    destruct (assoc (e_id e) (g_map g)); [reflexivity|]. cbn. unfold rename_graph. cbn. now rewrite map_app.
  Qed.
  Lemma add_many_renamed es : forall g, add_entities (rename_graph g) (map re es) = (rename_graph (fst (add_entities g es)), rename_result r (fun u => u) (snd (add_entities g es))).
  Proof.
    induction es as [|e es IH]; intros g; [reflexivity|]. cbn [map add_entities]. rewrite add_renamed.
    destruct (add_entity g e) as [g' [u|x]]; cbn [fst snd rename_result]; [apply IH|reflexivity].
  Qed.
  Lemma step_renamed g o : step (rename_graph g) (rename_op r o) = (rename_graph (fst (step g o)), rename_result r (fun u => u) (snd (step g o))).
  Proof.
    destruct o as [e|es| |]; cbn [rename_op step]; [apply add_renamed|apply add_many_renamed| |reflexivity].
    unfold build. cbn [rename_graph g_map g_nodes g_types g_edges]. rewrite edges_renamed. reflexivity.
  Qed.
  Lemma run_renamed ops : run (map (rename_op r) ops) = rename_graph (run ops).
  Proof.
    unfold run. change graph_new with (rename_graph graph_new) at 1. generalize graph_new as g.
    induction ops as [|o ops IH]; intros g; [reflexivity|]. cbn [map fold_left]. rewrite step_renamed. apply IH.
  Qed.

  Lemma get_field_renamed e f : get_field (re e) f = option_map rv (get_field e f).
  Proof.
    unfold get_field. cbn [rename_entity e_fields]. induction (e_fields e) as [|[f' v] fs IH]; [reflexivity|]. cbn. destruct (str_eqb f' f); [reflexivity|exact IH].
  Qed.
  Lemma get_renamed g id : get_entity (rename_graph g) (r id) = option_map re (get_entity g id).
  Proof. unfold get_entity. cbn [rename_graph g_map g_nodes]. rewrite assoc_renamed. destruct (assoc id (g_map g)); [|reflexivity]. apply nth_error_map. Qed.
  Lemma filter_opt_renamed {A} (f f' : A -> option entity) l : (forall a, f' a = option_map re (f a)) -> filter_opt f' l = map re (filter_opt f l).
  Proof. intros H. induction l as [|a l IH]; [reflexivity|]. cbn. rewrite H. destruct (f a); cbn; now rewrite IH. Qed.
  Lemma list_renamed g t : list_by_type (rename_graph g) t = map re (list_by_type g t).
  Proof.
    unfold list_by_type. cbn [rename_graph g_types g_nodes]. destruct (assoc t (g_types g)); [|reflexivity].
    apply filter_opt_renamed. intros n. apply nth_error_map.
  Qed.
  Lemma resolve_renamed g v : resolve_entity_reference (rename_graph g) (rv v) = rename_result r re (resolve_entity_reference g v).
  Proof.
    destruct v as [| | | | |[id|id f]| | | |]; try reflexivity. cbn [rename_value rename_ref resolve_entity_reference]. rewrite get_renamed.
    destruct (get_entity g id); reflexivity.
  Qed.
  Lemma visited_renamed id f vis : existsb (key_eqb (r id, f)) (map (fun p => (r (fst p), snd p)) vis) = existsb (key_eqb (id, f)) vis.
  Proof. induction vis as [|[i f'] vis IH]; [reflexivity|]. cbn. unfold key_eqb at 1 3. cbn [fst snd]. now rewrite eqb_renamed, IH. Qed.
  Lemma search_renamed g n : forall id f vis,
    search_field_reference (rename_graph g) (r id) f n (map (fun p => (r (fst p), snd p)) vis) = rename_result r rv (search_field_reference g id f n vis).
  Proof.
    induction n as [|n IH]; intros id f vis; [reflexivity|]. cbn [search_field_reference]. rewrite visited_renamed.
    destruct (existsb _ vis); [reflexivity|]. rewrite get_renamed. destruct (get_entity g id) as [e|]; [|reflexivity]. cbn [option_map].
    rewrite get_field_renamed. destruct (get_field e f) as [v|]; [|reflexivity]. cbn [option_map].
    destruct v as [| | | | |[i|tid tf]| | | |]; try reflexivity. cbn [rename_value rename_ref]. cbn [rename_graph g_map]. rewrite !assoc_renamed.
    destruct (assoc id (g_map g)); [|reflexivity]. destruct (assoc tid (g_map g)); [|reflexivity].
    change (has_field_edge (rename_graph g)) with (has_field_edge g).
    change (has_field_edge _ n0 n1 f tf) with (has_field_edge g n0 n1 f tf). destruct (has_field_edge g n0 n1 f tf); [|reflexivity].
    exact (IH tid tf ((id, f) :: vis)).
  Qed.
  Lemma resolve_field_renamed g v : resolve_field_reference (rename_graph g) (rv v) = rename_result r rv (resolve_field_reference g v).
  Proof.
    destruct v as [| | | | |[id|id f]| | | |]; try reflexivity. exact (search_renamed g 10 id f []).
  Qed.

  (** Validation *)
  Lemma type_renamed v : get_type (rv v) = get_type v.
  Proof. destruct v as [| | | | |[id|id f]| | | |]; reflexivity. Qed.
  Lemma validate_renamed ho s e : validate ho s (re e) = validate ho s e.
  Proof.
    unfold validate. cbn [rename_entity e_type]. f_equal. apply flat_map_ext. intros [f fs]. unfold validate_field. rewrite get_field_renamed.
    destruct (get_field e f) as [v|]; [|reflexivity]. cbn [option_map]. unfold is_type. rewrite type_renamed.
    destruct (negb _); [reflexivity|]. destruct v as [| | | | |[id|id f']| | | |]; reflexivity.
  Qed.

  (** Built graphs *)
  Lemma map_ids es : map e_id (map re es) = map r (map e_id es).
  Proof. rewrite !map_map. reflexivity. Qed.
  Lemma nodes_renamed ops : spec_run (map (rename_op r) ops) = map re (spec_run ops).
  Proof. rewrite <- (inv_nodes _ _ (run_inv (map (rename_op r) ops))), run_renamed, <- (inv_nodes _ _ (run_inv ops)). reflexivity. Qed.

  Lemma holds_renamed v t : holds v t -> holds (rv v) (rename_ref r t).
  Proof. induction 1 as [t|vs v t I H IH]; cbn; [constructor|]. eapply holds_item; [apply in_map; exact I|exact IH]. Qed.
  Lemma renamed_holds v t' : holds (rv v) t' -> exists t, holds v t /\ t' = rename_ref r t.
  Proof.
    induction v using value_ind'; intros H0; try solve [inversion H0].
    - inversion H0; subst. eexists. split; [constructor|reflexivity].
    - inversion H0 as [|vs' v t I Ho]; subst. apply in_map_iff in I as (u & <- & I). rewrite Forall_forall in H.
      destruct (H u I Ho) as (t & T & E). exists t. split; [eapply holds_item; eauto|exact E].
  Qed.
  Lemma target_renamed t : ref_target (rename_ref r t) = r (ref_target t).
  Proof. destruct t; reflexivity. Qed.
  Lemma mentions_renamed a b : mentions (re a) (re b) <-> mentions a b.
  Proof.
    unfold mentions. cbn [rename_entity e_fields e_id]. split; intros (f & v & t & I & H & E).
    - apply in_map_iff in I as ([f' v'] & Ev & I). cbn [fst snd] in Ev. injection Ev as <- <-.
      destruct (renamed_holds v' t H) as (t' & H' & ->). rewrite target_renamed in E. exists f', v', t'.
      split; [exact I|]. split; [exact H'|exact (rn_distinct r R _ _ E)].
    - exists f, (rv v), (rename_ref r t). split; [apply in_map_iff; exists (f, v); auto|]. split; [apply holds_renamed, H|]. rewrite target_renamed. now f_equal.
  Qed.
  Lemma neighbour_renamed d a b : neighbour d (re a) (re b) <-> neighbour d a b.
  Proof. destruct d as [[|]|]; cbn; rewrite ?mentions_renamed; reflexivity. Qed.
  Lemma lookup_renamed es id : lookup (map re es) (r id) = option_map re (lookup es id).
  Proof. unfold lookup. induction es as [|e es IH]; [reflexivity|]. cbn. rewrite eqb_renamed. destruct (str_eqb (e_id e) id); [reflexivity|exact IH]. Qed.
  Lemma ids_renamed l : NoDup (map e_id l) -> NoDup (map e_id (map re l)).
  Proof.
    rewrite map_ids. generalize (map e_id l) as ids. induction 1 as [|i ids N H IH]; cbn; [constructor|]. constructor; [|exact IH].
    intros I. apply in_map_iff in I as (j & E & I). apply (rn_distinct r R) in E as ->. contradiction.
  Qed.
  Lemma renamed_once es a b : NoDup (map e_id es) -> In a es -> In b es -> re a = re b -> a = b.
  Proof.
    intros N I J E. apply (f_equal e_id) in E. cbn in E. apply (rn_distinct r R) in E.
    pose proof (lookup_in es a N I) as A. rewrite E, (lookup_in es b N J) in A. now injection A.
  Qed.
  Lemma built_renamed g es : L_Graph.built g es -> L_Graph.built (rename_graph g) (map re es) -> forall id d,
    match get_related g id d, get_related (rename_graph g) (r id) d with
    | Some l, Some l' => Permutation (map re l) l'
    | None, None => True
    | _, _ => False
    end.
  Proof.
    intros B B' id d. pose proof (get_related_spec g es id d B) as S. pose proof (get_related_spec _ _ (r id) d B') as S'.
    rewrite lookup_renamed in S'. pose proof (inv_nodup _ _ (proj1 B)) as N.
    destruct (get_related g id d) as [l|].
    - destruct S as (a & La & So & S). rewrite La in S'. cbn [option_map] in S'.
      destruct (get_related _ (r id) d) as [l'|]; [|discriminate]. destruct S' as (a' & La' & So' & S'). injection La' as <-.
      assert (NL : forall m, StronglySorted id_lt m -> NoDup (map e_id m)).
      { clear. induction 1 as [|x m H IH F]; cbn; constructor; [|exact IH]. intros I. apply in_map_iff in I as (y & E & I).
        rewrite Forall_forall in F. specialize (F y I). unfold id_lt in F. rewrite E, str_cmp_refl in F. discriminate. }
      apply NoDup_Permutation.
      + apply (nodup_of_ids e_id). apply ids_renamed, NL, So.
      + apply (nodup_of_ids e_id). apply NL, So'.
      + intros b. rewrite S', !in_map_iff. split.
        * intros (c & <- & I). apply S in I as [I M]. split; [exists c; auto|]. now apply neighbour_renamed.
        * intros [(c & <- & I) M]. exists c. split; [reflexivity|]. apply S. split; [exact I|]. exact (proj1 (neighbour_renamed d a c) M).
    - rewrite S in S'. destruct (get_related _ (r id) d); [|exact Logic.I]. destruct S' as (a' & X & _). discriminate.
  Qed.

  (** Conditions *)
  Lemma same_value v : (forall t, ~ holds v t) -> rv v = v.
  Proof.
    induction v using value_ind'; intros N; try reflexivity.
    - exfalso. eapply N. constructor.
    - cbn. f_equal. induction H as [|v l H F IH]; [reflexivity|]. cbn. rewrite IH, H; [reflexivity| |].
      + intros t T. apply (N t). eapply holds_item; [now left|exact T].
      + intros t T. inversion T as [|? u ? I Hu]; subst. apply (N t). eapply holds_item; [right; exact I|exact Hu].
  Qed.
  Lemma ftype_renamed w : fvalue_type (rename_fvalue r w) = fvalue_type w.
  Proof. destruct w; reflexivity. Qed.
  Lemma string_renamed v o w : compare_string v o (rename_fvalue r w) = compare_string v o w.
  Proof. unfold compare_string. destruct v; destruct w; reflexivity. Qed.
  Definition entities_only (v : value) : Prop := forall t, holds v t -> exists id, t = REntity id.
  Lemma reference_renamed t o w : (exists id, t = REntity id) -> (forall s, w <> FStr s) ->
    compare_reference (VRef (rename_ref r t)) o (rename_fvalue r w) = compare_reference (VRef t) o w.
  Proof.
    intros (id & ->) T. unfold compare_reference. cbn [rename_ref]. destruct o; try reflexivity; destruct w; try reflexivity; try (exfalso; eapply T; reflexivity);
      cbn [rename_fvalue ref_display]; now rewrite letters_renamed.
  Qed.
  Lemma unchanged_item x v o w : (forall t, v <> VRef t) -> compare_list_item x (rv v) o (rename_fvalue r w) = compare_list_item x v o w.
  Proof.
    intros N. destruct v; try reflexivity; cbn [rename_value compare_list_item]; try apply string_renamed; try (destruct w; reflexivity).
    exfalso. eapply N; reflexivity.
  Qed.
  Lemma item_renamed x v o w : entities_only v -> (forall s, w <> FStr s) \/ (forall t, ~ holds v t) ->
    compare_list_item x (rv v) o (rename_fvalue r w) = compare_list_item x v o w.
  Proof.
    intros E T. destruct v as [| | | | |t| | | |]; try (apply unchanged_item; discriminate).
    destruct T as [T|T]; [|exfalso; eapply T; constructor].
    cbn [rename_value compare_list_item]. apply reference_renamed; [apply E; constructor|exact T].
  Qed.
  Lemma unreferenced v w x o : (forall t, ~ holds v t) -> compare_list_item x v o (rename_fvalue r w) = compare_list_item x v o w.
  Proof. intros N. rewrite <- (same_value v N) at 1. apply item_renamed; [intros t T; exfalso; eapply N, T|now right]. Qed.
  Lemma contains_renamed x items w : (forall v, In v items -> entities_only v /\ ((forall s, w <> FStr s) \/ (forall t, ~ holds v t))) ->
    list_contains x (map rv items) (rename_fvalue r w) = list_contains x items w.
  Proof.
    induction items as [|i items IH]; intros H; [reflexivity|]. cbn [map list_contains]. rewrite IH by (intros; apply H; now right).
    destruct (H i (or_introl eq_refl)) as [E T].
    assert (X : match rv i, rename_fvalue r w with VStr _, FStr _ => compare_string (rv i) OpContains (rename_fvalue r w) | _, _ => compare_list_item x (rv i) OpEq (rename_fvalue r w) end
      = match i, w with VStr _, FStr _ => compare_string i OpContains w | _, _ => compare_list_item x i OpEq w end).
    { pose proof (item_renamed x i OpEq w E T) as Q. destruct i; cbn [rename_value] in *; destruct w; cbn [rename_fvalue] in *; try exact Q; reflexivity. }
    rewrite X. reflexivity.
  Qed.
  Lemma equal_renamed x items : forall ws, (forall v w, In v items -> In w ws -> entities_only v /\ ((forall s, w <> FStr s) \/ (forall t, ~ holds v t))) ->
    list_equal x (map rv items) (map (rename_fvalue r) ws) = list_equal x items ws.
  Proof.
    induction items as [|i items IH]; intros ws H; [reflexivity|]. destruct ws as [|w ws]; [reflexivity|]. cbn [map list_equal].
    destruct (H i w (or_introl eq_refl) (or_introl eq_refl)) as [E T]. rewrite (item_renamed x i OpEq w E T).
    rewrite IH by (intros; apply H; now right). reflexivity.
  Qed.
  Lemma textless_in w ws : fold_right (fun w P => textless w /\ P) True ws -> In w ws -> textless w.
  Proof. induction ws as [|u ws IH]; cbn; [contradiction|]. intros [A B] [->|I]; auto. Qed.
  Lemma value_renamed x v o w : entities_only v -> textless w \/ (forall t, ~ holds v t) ->
    compare_value x (rv v) o (rename_fvalue r w) = compare_value x v o w.
  Proof.
    intros E T. destruct v as [| | | | |t|vs| | |]; cbn [rename_value compare_value]; try apply string_renamed; try (destruct w; reflexivity).
    - destruct T as [T|T]; [|exfalso; eapply T; constructor]. apply reference_renamed; [apply E; constructor|]. intros s ->. exact T.
    - assert (EI : forall v, In v vs -> entities_only v) by (intros v I t Ht; apply E; eapply holds_item; eauto).
      assert (TI : (forall t, ~ holds (VList vs) t) -> forall v, In v vs -> forall t, ~ holds v t) by (intros N v I t Ht; apply (N t); eapply holds_item; eauto).
      unfold compare_list. destruct o; try reflexivity.
      + destruct w as [s|z|f|b|a c|s|s|s|s|ws]; try reflexivity. cbn [rename_fvalue]. rewrite !map_length. destruct (Nat.eqb _ _); [|reflexivity].
        apply equal_renamed. intros v w I J. split; [apply EI, I|]. destruct T as [T|T]; [left|right; apply TI; auto].
        intros s ->. exact (textless_in _ _ T J).
      + apply contains_renamed. intros v I. split; [apply EI, I|]. destruct T as [T|T]; [left; intros s ->; exact T|right; apply TI; auto].
  Qed.
  Lemma matches_renamed x es c e : asks_no_letters es c -> In e es -> matches x (rename_condition r c) (re e) = matches x c e.
  Proof.
    intros A I. unfold matches. cbn [rename_condition c_field c_op c_value]. unfold asks_no_letters in A.
    destruct (c_field c) as [[|]|f]; [apply string_renamed|contradiction|]. rewrite get_field_renamed.
    destruct (get_field e f) as [v|] eqn:G; [|reflexivity]. cbn [option_map]. destruct A as [A|[A T]].
    - apply value_renamed; [intros t Ht; exfalso; eapply A; eauto|right; intros t Ht; eapply A; eauto].
    - apply value_renamed; [intros t Ht; eapply A; eauto|left; exact T].
  Qed.
  Lemma all_renamed x es cc e : (forall c, In c (cc_conds cc) -> asks_no_letters es c) -> In e es ->
    matches_all x {| cc_conds := map (rename_condition r) (cc_conds cc); cc_comb := cc_comb cc |} (re e) = matches_all x cc e.
  Proof.
    intros A I. unfold matches_all. cbn [cc_conds cc_comb].
    assert (X : collect (fun c => matches x c (re e)) (map (rename_condition r) (cc_conds cc)) = collect (fun c => matches x c e) (cc_conds cc)).
    { revert A. induction (cc_conds cc) as [|c cs IH]; intros A; [reflexivity|]. cbn [map collect]. rewrite (matches_renamed x es c e) by (auto; apply A; now left).
      rewrite IH by (intros; apply A; now right). reflexivity. }
    rewrite X. reflexivity.
  Qed.
  Definition rename_list (a : qres (list entity)) : qres (list entity) := match a with Ok l => Ok (map re l) | Err e => Err e end.
  Lemma where_renamed x es cc l : (forall c, In c (cc_conds cc) -> asks_no_letters es c) -> incl l es ->
    where_step x {| cc_conds := map (rename_condition r) (cc_conds cc); cc_comb := cc_comb cc |} (map re l) = rename_list (where_step x cc l).
  Proof.
    intros A. induction l as [|e l IH]; intros I; [reflexivity|]. cbn [map where_step]. rewrite (all_renamed x es cc e A) by (apply I; now left).
    destruct (matches_all x cc e) as [b|]; [|reflexivity]. rewrite IH by (intros y Hy; apply I; now right).
    destruct (where_step x cc l) as [m|]; [|reflexivity]. cbn. destruct b; reflexivity.
  Qed.
  (** Orders *)
  Lemma sort_renamed (cmp : entity -> entity -> comparison) l : (forall a b, In a l -> In b l -> cmp (re a) (re b) = cmp a b) ->
    sort_by cmp (map re l) = map re (sort_by cmp l).
  Proof.
    induction l as [|a l IH]; intros H; [reflexivity|]. cbn [map sort_by]. rewrite IH by (intros; apply H; now right).
    assert (Q : forall b, In b (sort_by cmp l) -> cmp (re a) (re b) = cmp a b).
    { intros b I. apply H; [now left|right]. eapply Permutation_in; [symmetry; apply sort_perm|exact I]. }
    revert Q. generalize (sort_by cmp l) as m. induction m as [|b m IHm]; intros Q; [reflexivity|]. cbn [map insert_by]. rewrite (Q b) by now left.
    destruct (cmp a b); try reflexivity. cbn [map]. rewrite IHm; [reflexivity|]. intros; apply Q; now right.
  Qed.
  Lemma order_renamed es f d l : match f with FMeta MId => False | FMeta MType => True | FReg f => nameless es f end -> incl l es ->
    order_step f d (map re l) = map re (order_step f d l).
  Proof.
    intros A I. unfold order_step. apply sort_renamed. intros a b Ha Hb. unfold compare_entities.
    assert (X : cmp_by_field f (re a) (re b) = cmp_by_field f a b).
    { destruct f as [[|]|f]; [reflexivity|contradiction|]. cbn [cmp_by_field]. rewrite !get_field_renamed.
      destruct (get_field a f) as [u|] eqn:U, (get_field b f) as [v|] eqn:V; try reflexivity. cbn [option_map].
      rewrite (same_value u), (same_value v); [reflexivity| |]; intros t T; [exact (A b v t (I b Hb) V T)|exact (A a u t (I a Ha) U T)]. }
    now rewrite X.
  Qed.
  Lemma exec_unrelated_renamed x g ho es ops : no_related ops -> (forall c, conditions ops c -> asks_no_letters es c) -> ordered_by_no_name es ops ->
    forall n l, incl l es -> exec_ops x (rename_graph g) ho n (map (rename_operation r) ops) (map re l) = rename_list (exec_ops x g ho n ops l).
  Proof.
    induction ops as [|o ops IH]; intros NR C Or n l I; [reflexivity|]. cbn [map exec_ops].
    assert (X : exec_op x (rename_graph g) ho n (rename_operation r o) (map re l) = rename_list (exec_op x g ho n o l)
                /\ (forall m, exec_op x g ho n o l = Ok m -> incl m es)).
    { destruct o as [cc|d t|f d|k]; cbn [rename_operation exec_op].
      - split; [apply (where_renamed x es); [|exact I]; intros c Hc; apply C; exists cc; split; [now left|exact Hc]|].
        intros m W. apply where_ok in W as [_ K]. intros e He. apply (keeps_in _ _ _ _ K) in He. apply I. tauto.
      - exfalso. eapply NR. now left.
      - split; [cbn; f_equal; apply (order_renamed es); [|exact I]; exact (Or f d (or_introl eq_refl))|].
        intros m [= <-] e He. apply I. eapply Permutation_in; [symmetry; apply sort_perm|exact He].
      - split; [cbn; now rewrite firstn_map|]. intros m [= <-] e He. apply I. rewrite <- (firstn_skipn k l). apply in_or_app. now left. }
    destruct X as [X Y]. rewrite X. destruct (exec_op x g ho n o l) as [m|]; [|reflexivity]. cbn [rename_list bind].
    apply IH; [intros d t Hd; eapply NR; right; exact Hd|intros c (cc & Hc & Hi); apply C; exists cc; split; [now right|exact Hi]|intros f d Hf; apply (Or f d); now right|].
    apply Y. reflexivity.
  Qed.
  (** Aggregates *)
  Lemma numeric_renamed f l : collect_numeric f (map re l) = collect_numeric f l.
  Proof.
    induction l as [|e l IH]; [reflexivity|]. cbn [map collect_numeric]. rewrite get_field_renamed, IH.
    destruct (get_field e f) as [[| | | | |[i|i f']| | | |]|]; reflexivity.
  Qed.
  Lemma count_renamed f l : exec_count f (map re l) = exec_count f l.
  Proof.
    unfold exec_count. destruct f as [[m|f]|]; rewrite ?map_length; try reflexivity. do 1 f_equal.
    induction l as [|e l IH]; [reflexivity|]. cbn [map filter].
    assert (X : has_field f (re e) = has_field f e) by (unfold has_field; rewrite get_field_renamed; destruct (get_field e f); reflexivity).
    rewrite X. destruct (has_field f e); cbn [length]; [now rewrite IH|exact IH].
  Qed.
  Lemma agg_renamed x a l : shows_no_id (Some a) ->
    rename_answer r (bind (exec_agg x a l) (fun q => Ok (QAgg q))) = bind (exec_agg x a (map re l)) (fun q => Ok (QAgg q)).
  Proof.
    intros SI. destruct a as [fs|f|f|f|f]; cbn [exec_agg].
    - cbn [bind rename_answer exec_select]. unfold exec_select. do 3 f_equal. rewrite !map_map. apply map_ext. intros e. rewrite map_map. apply map_ext_in. intros f Hf.
      destruct f as [[|]|f]; [reflexivity|exfalso; exact (SI fs eq_refl Hf)|]. symmetry. apply get_field_renamed.
    - rewrite count_renamed. reflexivity.
    - unfold exec_sum. destruct (regular f) as [f'|]; [|reflexivity]. cbn [bind]. rewrite numeric_renamed.
      destruct (collect_numeric f' l) as [ns|]; [|reflexivity]. cbn [bind]. unfold sum_numeric. destruct ns; [reflexivity|]. 
      destruct (classify _) as [[| |c]|]; try reflexivity; cbn [bind]; [destruct (i64_sum _ _ _); reflexivity|destruct (cur_sum _ _ _ _); reflexivity].
    - unfold exec_average. destruct (regular f) as [f'|]; [|reflexivity]. cbn [bind]. rewrite numeric_renamed.
      destruct (collect_numeric f' l) as [[|]|]; reflexivity.
    - unfold exec_median. destruct (regular f) as [f'|]; [|reflexivity]. cbn [bind]. rewrite numeric_renamed.
      destruct (collect_numeric f' l) as [[|]|]; reflexivity.
  Qed.
  Lemma select_renamed g ho s : select_from (rename_graph g) ho s = rename_list (select_from g ho s).
  Proof.
    destruct s as [t|]; cbn [select_from]; change (type_keys (rename_graph g)) with (type_keys g).
    - destruct (str_in t (type_keys g)); [|reflexivity]. cbn. now rewrite list_renamed.
    - cbn. f_equal. induction (ho [0] (type_keys g)) as [|t ts IH]; [reflexivity|]. cbn. now rewrite IH, list_renamed, map_app.
  Qed.
  Lemma execute_exactly x g es ho s ops a : L_Graph.built g es -> orders ho ->
    no_related ops -> (forall c, conditions ops c -> asks_no_letters es c) -> ordered_by_no_name es ops -> shows_no_id a ->
    execute x (rename_graph g) ho {| q_from := s; q_ops := map (rename_operation r) ops; q_agg := a |}
    = rename_answer r (execute x g ho {| q_from := s; q_ops := ops; q_agg := a |}).
  Proof.
    intros B O NR C Or SI. unfold execute. cbn [q_from q_ops q_agg]. rewrite select_renamed.
    destruct (select_from g ho s) as [l|] eqn:E; [|reflexivity]. cbn [rename_list bind]. apply (select_good g es B) in E as [I _]; [|exact O].
    rewrite (exec_unrelated_renamed x g ho es ops NR C Or 0 l I). destruct (exec_ops x g ho 0 ops l) as [m|]; [|reflexivity]. cbn [rename_list bind].
    destruct a as [a|]; [symmetry; apply agg_renamed, SI|reflexivity].
  Qed.
  (** With relations: up to order *)
  Lemma within_renamed es n a b : S_Query.within (fun a b => In b es /\ neighbour None a b) n a b ->
    S_Query.within (fun a b => In b (map re es) /\ neighbour None a b) n (re a) (re b).
  Proof.
    induction 1 as [|n a b c [H1 H2] W IH]; [constructor|]. econstructor; [|exact IH]. split; [apply in_map, H1|now apply neighbour_renamed].
  Qed.
  Lemma renamed_within es n a' b' : S_Query.within (fun a b => In b (map re es) /\ neighbour None a b) n a' b' -> forall a, a' = re a ->
    exists b, b' = re b /\ S_Query.within (fun a b => In b es /\ neighbour None a b) n a b.
  Proof.
    induction 1 as [n a'|n a' b' c' [H1 H2] W IH]; intros a ->; [exists a; split; [reflexivity|constructor]|].
    apply in_map_iff in H1 as (b & <- & I). apply (proj1 (neighbour_renamed None a b)) in H2. destruct (IH b eq_refl) as (c & -> & Wc). exists c. split; [reflexivity|].
    econstructor; [|exact Wc]. auto.
  Qed.
  Definition alike (a b : qres (list entity)) : Prop :=
    match a, b with Ok l, Ok l' => Permutation (map re l) l' | Err _, Err _ => True | _, _ => False end.
  Section built.
    Context (x : ext) (g : graph) (es : list entity) (B : L_Graph.built g es) (B' : L_Graph.built (rename_graph g) (map re es)).
    Context (ho ho' : hash_order) (O : orders ho) (O' : orders ho').
    Lemma related_renamed n n' d t l l' : good es l -> good (map re es) l' -> Permutation (map re l) l' ->
      Permutation (map re (related_step g ho n d t l)) (related_step (rename_graph g) ho' n' d t l').
    Proof.
      intros [I N] [I' N'] Q. destruct d as [|d]; [exact Q|]. pose proof (inv_nodup _ _ (proj1 B)) as NE. apply NoDup_Permutation.
      - apply (nodup_of_ids e_id), ids_renamed. apply (related_nodup g es B ho O). lia.
      - exact (nodup_of_ids e_id _ (related_nodup _ _ B' ho' O' n' (S d) t l' ltac:(lia))).
      - intros e'. rewrite in_map_iff. rewrite (related_in _ _ B' ho' O') by (auto; lia). split.
        + intros (e & <- & H). apply (related_in g es B ho O) in H as (H1 & H2 & a & Ha & W); [|lia|exact I].
          split; [destruct t; exact H1|]. split; [apply in_map, H2|]. exists (re a). split; [eapply Permutation_in; [exact Q|apply in_map, Ha]|apply within_renamed, W].
        + intros (H1 & H2 & a' & Ha & W). apply (Permutation_in _ (Permutation_sym Q)) in Ha. apply in_map_iff in Ha as (a & <- & Ha).
          destruct (renamed_within es _ _ _ W a eq_refl) as (e & -> & We). exists e. split; [reflexivity|]. apply (related_in g es B ho O); [lia|exact I|].
          split; [destruct t; exact H1|]. split; [|exists a; auto].
          inversion We as [n0 a0|]; subst; [apply I, Ha|]. clear -We B I Ha. 
          assert (X : forall k u v, S_Query.within (fun a b => In b es /\ neighbour None a b) k u v -> In u es -> In v es).
          { induction 1 as [|k u v w [P _] _ IH]; auto. }
          eapply X; [exact We|apply I, Ha].
    Qed.
    Lemma ops_renamed ops : no_limit ops -> (forall c, conditions ops c -> asks_no_letters es c) ->
      forall n n' l l', good es l -> good (map re es) l' -> Permutation (map re l) l' ->
      alike (exec_ops x g ho n ops l) (exec_ops x (rename_graph g) ho' n' (map (rename_operation r) ops) l').
    Proof.
      induction ops as [|o ops IH]; intros NL C n n' l l' G G' Q; cbn [map exec_ops]; [exact Q|].
      assert (A : alike (exec_op x g ho n o l) (exec_op x (rename_graph g) ho' n' (rename_operation r o) l')).
      { destruct o as [cc|dd t|f dd|k]; cbn [rename_operation exec_op].
        - pose proof (where_agree x {| cc_conds := map (rename_condition r) (cc_conds cc); cc_comb := cc_comb cc |} (map re l) l' Q) as A.
          rewrite (where_renamed x es cc l) in A; [|intros c Hc; apply C; exists cc; split; [now left|exact Hc]|apply G].
          destruct (where_step x cc l), (where_step x _ l'); cbn in A |- *; auto.
        - cbn [alike]. apply related_renamed; auto.
        - cbn [alike]. unfold order_step. eapply perm_trans; [apply Permutation_map; symmetry; apply sort_perm|]. eapply perm_trans; [exact Q|apply sort_perm].
        - exfalso. apply (NL k). now left. }
      destruct (exec_op x g ho n o l) as [r1|] eqn:E1, (exec_op x (rename_graph g) ho' n' (rename_operation r o) l') as [r2|] eqn:E2; cbn [alike bind] in A |- *; auto; try contradiction.
      apply IH; auto.
      - intros k H. apply (NL k). now right.
      - intros c (cc & Hc & Hi). apply C. exists cc. split; [now right|exact Hi].
      - eapply exec_op_good; [exact B|exact O|exact G|exact E1].
      - eapply exec_op_good; [exact B'|exact O'|exact G'|exact E2].
    Qed.
    Lemma execute_renamed s ops : no_limit ops -> (forall c, conditions ops c -> asks_no_letters es c) ->
      same_entities (rename_answer r (execute x g ho {| q_from := s; q_ops := ops; q_agg := None |}))
        (execute x (rename_graph g) ho' {| q_from := s; q_ops := map (rename_operation r) ops; q_agg := None |}).
    Proof.
      intros NL C. unfold execute; cbn [q_from q_ops q_agg].
      assert (A : alike (select_from g ho s) (select_from (rename_graph g) ho' s)).
      { destruct s as [t|].
        - cbn [select_from]. change (type_keys (rename_graph g)) with (type_keys g). destruct (str_in t (type_keys g)); cbn; [|exact Logic.I]. now rewrite list_renamed.
        - pose proof (select_all g es B ho _ O eq_refl) as H. pose proof (select_all _ _ B' ho' _ O' eq_refl) as H'. cbn [select_from alike] in *.
          rewrite H'. apply Permutation_map, H. }
      destruct (select_from g ho s) as [l1|] eqn:E1, (select_from (rename_graph g) ho' s) as [l2|] eqn:E2; cbn in A |- *; try contradiction; auto.
      apply (select_good g es B) in E1; auto. apply (select_good _ _ B') in E2; auto.
      pose proof (ops_renamed ops NL C 0 0 l1 l2 E1 E2 A) as A2.
      destruct (exec_ops x g ho 0 ops l1), (exec_ops x (rename_graph g) ho' 0 _ l2); cbn in A2 |- *; try contradiction; auto.
    Qed.
  End built.
End rename.
