(** Lemmas for C93. *)
From Coq Require Import Lia.
From Verif Require Import M_Graph S_Query S_Dsl S_Tools S_Crash L_Str L_Sort L_Graph L_Order L_Order2 L_Filter L_Exec L_DslStr.
From Verif Require Import S_Fold.
From Verif Require Import M_Graph.

(** ** ASCII texts *)
Lemma ascii_ref r : ref_display r = reference_text r. Proof. destruct r; reflexivity. Qed.

Section Ascii.
  Variable f : str -> str.
  Hypothesis F : folds_ascii f.

  Lemma op_ascii o a b : all_ascii a -> all_ascii b -> text_op_by f o a b = text_op o a b.
  Proof. intros A B. destruct o; try reflexivity; cbn [text_op_by text_op]; rewrite (F a A), (F b B); reflexivity. Qed.
  Lemma string_ascii v o w : (forall s, text_held v s -> all_ascii s) -> (forall s, text_asked w s -> all_ascii s) ->
    compare_string_by f v o w = compare_string v o w.
  Proof.
    intros A B. destruct v; try reflexivity; destruct w; try reflexivity; cbn [compare_string_by compare_string];
      rewrite op_ascii; try reflexivity; first [apply A; constructor|apply B; constructor].
  Qed.
  Lemma item_ascii x v o w : (forall s, text_held v s -> all_ascii s) -> (forall s, text_asked w s -> all_ascii s) ->
    compare_list_item_by f x v o w = compare_list_item x v o w.
  Proof. intros A B. destruct v; try reflexivity; exact (string_ascii _ o w A B). Qed.
  Lemma contains_ascii x items w : (forall v s, In v items -> text_held v s -> all_ascii s) -> (forall s, text_asked w s -> all_ascii s) ->
    list_contains_by f x items w = list_contains x items w.
  Proof.
    intros A B. induction items as [|i items IH]; [reflexivity|]. cbn [list_contains_by list_contains].
    rewrite IH by (intros v s Iv; apply (A v s (or_intror Iv))).
    rewrite (item_ascii x i OpEq w (fun s => A i s (or_introl eq_refl)) B).
    destruct i; try reflexivity. rewrite (string_ascii _ OpContains w (fun s => A _ s (or_introl eq_refl)) B). reflexivity.
  Qed.
  Lemma value_ascii x v o w : (forall s, text_held v s -> all_ascii s) -> (forall s, text_asked w s -> all_ascii s) ->
    compare_value_by f x v o w = compare_value x v o w.
  Proof.
    intros A B. destruct v; try reflexivity; try exact (string_ascii _ o w A B). cbn [compare_value_by compare_value].
    destruct o; try reflexivity. cbn [compare_list_by compare_list]. apply contains_ascii; [|exact B].
    intros v s Iv H. apply A. exact (held_list _ _ _ Iv H).
  Qed.
  Lemma matches_ascii x c e : ascii_entity e -> (forall s, text_asked (c_value c) s -> all_ascii s) -> matches_by f x c e = matches x c e.
  Proof.
    intros (Ai & At & Af) B. unfold matches_by, matches. destruct (c_field c) as [[]|n].
    - apply string_ascii; [|exact B]. cbn [meta_value]. intros s H. inversion H; subst. assumption.
    - apply string_ascii; [|exact B]. cbn [meta_value]. intros s H. inversion H; subst. assumption.
    - destruct (get_field e n) as [v|] eqn:G; [|reflexivity]. apply value_ascii; [|exact B]. intros s. exact (Af n v s G).
  Qed.
  Lemma all_ascii_matches x cc e : ascii_entity e -> (forall c s, In c (cc_conds cc) -> text_asked (c_value c) s -> all_ascii s) ->
    matches_all_by f x cc e = matches_all x cc e.
  Proof.
    intros A B. unfold matches_all_by, matches_all.
    assert (X : collect (fun c => matches_by f x c e) (cc_conds cc) = collect (fun c => matches x c e) (cc_conds cc)); [|rewrite X; reflexivity].
    induction (cc_conds cc) as [|c l IH]; [reflexivity|]. cbn [collect]. rewrite (matches_ascii x c e A (fun s => B c s (or_introl eq_refl))), IH; [reflexivity|].
    intros c' s I. exact (B c' s (or_intror I)).
  Qed.
  Lemma where_ascii x cc es : Forall ascii_entity es -> (forall c s, In c (cc_conds cc) -> text_asked (c_value c) s -> all_ascii s) ->
    where_step_by f x cc es = where_step x cc es.
  Proof.
    intros A B. induction A as [|e es Ae A IH]; [reflexivity|]. cbn [where_step_by where_step]. rewrite (all_ascii_matches x cc e Ae B), IH. reflexivity.
  Qed.
End Ascii.

(** ** Order *)
Lemma cmp_values_by_list f xs ys : cmp_values_by f (VList xs) (VList ys) = list_cmp (cmp_values_by f) xs ys.
Proof.
  cbn [cmp_values_by].
  assert (G : forall k l r, length xs = k + length l -> length ys = k + length r ->
    (fix go (l r : list value) {struct l} : comparison :=
       match l, r with
       | u :: l', w :: r' => match cmp_values_by f u w with Eq => go l' r' | o => o end
       | _, _ => Nat.compare (length xs) (length ys)
       end) l r = list_cmp (cmp_values_by f) l r).
  { intros k l. revert k. induction l as [|u l IH]; intros k r E1 E2.
    - destruct r as [|w r]; cbn in *.
      + apply Nat.compare_eq_iff. lia.
      + apply Nat.compare_lt_iff. lia.
    - destruct r as [|w r]; [cbn in *; apply Nat.compare_gt_iff; lia|].
      cbn [list_cmp]. destruct (cmp_values_by f u w); auto.
      apply (IH (S k)); cbn in *; lia. }
  apply (G 0); auto.
Qed.

(** A text written in letters that lower-casing leaves alone, in the same order. *)
Definition high (c : ascii) : ascii := ascii_of_N (97 + code c / 16).
Definition low (c : ascii) : ascii := ascii_of_N (97 + code c mod 16).
Definition spelled (s : str) : str := flat_map (fun c => [high c; low c]) s.
Lemma code_small c : (code c < 256)%N.
Proof. unfold code. apply N_ascii_bounded. Qed.
Lemma code_high c : code (high c) = (97 + code c / 16)%N.
Proof.
  unfold high. unfold code at 1. apply N_ascii_embedding. pose proof (code_small c).
  assert (code c / 16 < 16)%N by (apply N.div_lt_upper_bound; lia). lia.
Qed.
Lemma code_low c : code (low c) = (97 + code c mod 16)%N.
Proof.
  unfold low. unfold code at 1. apply N_ascii_embedding.
  assert (code c mod 16 < 16)%N by (apply N.mod_lt; lia). lia.
Qed.
Lemma spelled_cmp a : forall b, str_cmp (spelled a) (spelled b) = str_cmp a b.
Proof.
  induction a as [|c a IH]; intros [|d b]; try reflexivity. cbn [spelled flat_map app str_cmp]. fold (spelled a). fold (spelled b). rewrite IH. unfold ascii_cmp.
  rewrite !code_high, !code_low. pose proof (N.div_mod' (code c) 16) as E1. pose proof (N.div_mod' (code d) 16) as E2.
  assert (L1 : (code c mod 16 < 16)%N) by (apply N.mod_lt; lia). assert (L2 : (code d mod 16 < 16)%N) by (apply N.mod_lt; lia).
  destruct (N.compare_spec (97 + code c / 16) (97 + code d / 16)) as [H|H|H];
    destruct (N.compare_spec (97 + code c mod 16) (97 + code d mod 16)) as [K|K|K];
    destruct (N.compare_spec (code c) (code d)) as [J|J|J]; try reflexivity; exfalso; lia.
Qed.
Lemma spelled_lower s : lower (spelled s) = spelled s.
Proof.
  induction s as [|c s IH]; [reflexivity|]. cbn [spelled flat_map app]. fold (spelled s).
  change (lower (high c :: low c :: spelled s)) with (lower_ascii (high c) :: lower_ascii (low c) :: lower (spelled s)). rewrite IH.
  assert (X : lower_ascii (high c) = high c /\ lower_ascii (low c) = low c) by (destruct c as [[] [] [] [] [] [] [] []]; split; vm_compute; reflexivity).
  destruct X as [-> ->]. reflexivity.
Qed.

Section Order.
  Variable f : str -> str.

  Fixpoint respelled (v : value) : value :=
    match v with
    | VStr s => VStr (spelled (f s))
    | VEnum s => VEnum (spelled (f s))
    | VRef r => VRef (REntity (spelled (f (ref_display r))))
    | VList vs => VList (map respelled vs)
    | v => v
    end.
  Lemma cmp_respelled v : forall w, cmp_values_by f v w = cmp_values (respelled v) (respelled w).
  Proof.
    revert v. apply (value_ind' (fun v => forall w, cmp_values_by f v w = cmp_values (respelled v) (respelled w))).
    7: { intros vs IH w. destruct w as [| | | | | |ws| | |]; try reflexivity. cbn [respelled]. rewrite cmp_values_by_list, cmp_values_list.
         revert ws. induction IH as [|v vs Hv IH IHl]; intros [|w ws]; try reflexivity. cbn [list_cmp map]. rewrite Hv, IHl. reflexivity. }
    all: intros; match goal with |- _ = cmp_values _ (respelled ?w) => destruct w end; try reflexivity; cbn [respelled cmp_values_by cmp_values ref_display];
      rewrite !spelled_lower, spelled_cmp; reflexivity.
  Qed.
  Lemma respelled_conforms m v : conforms m (respelled v) = conforms m v.
  Proof.
    revert v. apply (value_ind' (fun v => conforms m (respelled v) = conforms m v)); try reflexivity.
    intros vs IH. cbn [respelled conforms]. induction IH as [|v vs Hv IH IHl]; [reflexivity|]. cbn [map forallb]. rewrite Hv, IHl. reflexivity.
  Qed.
  Lemma cmp_by_anti m v w : conforms m v = true -> conforms m w = true -> anti (cmp_values_by f) v w.
  Proof. intros A B. unfold anti. rewrite !cmp_respelled. apply (cmp_anti m); rewrite respelled_conforms; assumption. Qed.
  Lemma cmp_by_trans m u v w : conforms m u = true -> conforms m v = true -> conforms m w = true -> trans3 (cmp_values_by f) u v w.
  Proof. intros A B C. unfold trans3. rewrite !cmp_respelled. apply (cmp_trans m); rewrite respelled_conforms; assumption. Qed.

  Lemma order_by_preorder m n d : total_preorder_on (compare_entities_by f (FReg n) d) (conforming m n).
  Proof.
    assert (X : total_preorder_on (cmp_by_field_by f (FReg n)) (conforming m n)).
    { apply tpo_on.
      - intros a b Ha Hb. unfold anti, conforming in *. cbn.
        destruct (get_field a n), (get_field b n); auto. apply (cmp_by_anti m); auto.
      - intros a b c Ha Hb Hc. unfold trans3, conforming in *. cbn.
        destruct (get_field a n), (get_field b n), (get_field c n); auto.
        + apply (cmp_by_trans m); auto.
        + destruct (cmp_values_by f v v0); auto.
        + destruct (cmp_values_by f v v0); auto. }
    destruct d; [exact X|]. apply (tpo_opp _ _ X).
  Qed.
  Lemma meta_by_preorder mf d : total_preorder_on (compare_entities_by f (FMeta mf) d) (fun _ => True).
  Proof.
    assert (X : total_preorder_on (cmp_by_field_by f (FMeta mf)) (fun _ => True)).
    { apply tpo_on; intros; destruct mf; cbn; unfold anti, trans3; cbn.
      - apply tpo_str.
      - apply tpo_str.
      - apply (tpo_map (fun e => f (e_type e))), tpo_str.
      - apply (tpo_map (fun e => f (e_id e))), tpo_str. }
    destruct d; [exact X|]. apply (tpo_opp _ _ X).
  Qed.
  Lemma sortable_preorder fr d es : sortable fr es -> exists P, total_preorder_on (compare_entities_by f fr d) P /\ Forall P es /\
    (forall a b, P a -> P b -> cmp_by_field_by f fr b a = CompOpp (cmp_by_field_by f fr a b)).
  Proof.
    destruct fr as [mf|n]; cbn [sortable].
    - intros _. exists (fun _ => True). split; [apply meta_by_preorder|]. split; [apply Forall_forall; auto|]. exact (proj1 (meta_by_preorder mf Ascending)).
    - intros (m & C). exists (conforming m n). split; [apply order_by_preorder|]. split; [exact C|]. exact (proj1 (order_by_preorder m n Ascending)).
  Qed.

  Lemma item_by_spec v w : get_type v = get_type w -> get_type v <> TList -> cmp_values_by f v w <> Gt <-> item_le_by f v w.
  Proof.
    intros T N. pose proof (item_le_spec v w T N) as H.
    destruct v as [| | | | |r| | | |], w as [| | | | |r'| | | |]; try exact H; try (cbn in N; congruence); try (apply lex_le_spec).
  Qed.
  Lemma flat_by_anti v w : get_type v = get_type w -> get_type v <> TList -> cmp_values_by f w v = CompOpp (cmp_values_by f v w).
  Proof.
    intros T N. apply (cmp_by_anti {| ct_text := get_type v; ct_num := get_type v |}); destruct v, w; cbn in T; try discriminate; try (destruct r; discriminate); try (destruct r0; discriminate); try reflexivity; cbn in N; congruence.
  Qed.
  Lemma items_by_spec l : forall r, list_cmp (cmp_values_by f) l r <> Gt -> items_le_by f l r.
  Proof.
    induction l as [|v l IH]; intros [|w r]; cbn [list_cmp items_le_by]; intros H; [exact I|exact I|exfalso; apply H; reflexivity|]. intros (T & N).
    split; [apply (item_by_spec v w T N); destruct (cmp_values_by f v w); congruence|]. intros X.
    apply (item_by_spec w v (eq_sym T)) in X; [|congruence]. rewrite (flat_by_anti v w T N) in X.
    apply IH. destruct (cmp_values_by f v w); [exact H|exfalso; apply X; reflexivity|congruence].
  Qed.
  Lemma value_by_spec v w : get_type v = get_type w -> cmp_values_by f v w <> Gt -> value_le_by f v w.
  Proof.
    intros T H. destruct (field_type_dec_list v) as [(l & ->)|N].
    - destruct w; try discriminate T; [destruct r; discriminate T|]. cbn [value_le_by]. apply items_by_spec. rewrite <- cmp_values_by_list. exact H.
    - assert (X : item_le_by f v w) by (apply item_by_spec; assumption). destruct v; try exact X. destruct N. reflexivity.
  Qed.
  Lemma ascending_by_spec fr a b : cmp_by_field_by f fr a b <> Gt -> ascending_by f fr a b.
  Proof.
    destruct fr as [[]|n]; cbn.
    - apply lex_le_spec.
    - apply lex_le_spec.
    - destruct (get_field a n), (get_field b n); auto; try congruence. intros. apply value_by_spec; auto.
  Qed.
  Lemma in_direction_by fr d a b : cmp_by_field_by f fr b a = CompOpp (cmp_by_field_by f fr a b) ->
    compare_entities_by f fr d a b <> Gt -> in_direction d (ascending_by f fr) a b.
  Proof.
    intros An. destruct d; cbn [in_direction compare_entities_by]; intros H; apply ascending_by_spec; [exact H|].
    rewrite An. intros E. apply H. destruct (cmp_by_field_by f fr a b); cbn in *; congruence.
  Qed.
End Order.

Section AsciiOrder.
  Variable f : str -> str.
  Hypothesis F : folds_ascii f.
  Lemma values_ascii v : forall w, (forall s, text_held v s -> all_ascii s) -> (forall s, text_held w s -> all_ascii s) ->
    cmp_values_by f v w = cmp_values v w.
  Proof.
    revert v. apply (value_ind' (fun v => forall w, (forall s, text_held v s -> all_ascii s) -> (forall s, text_held w s -> all_ascii s) -> cmp_values_by f v w = cmp_values v w)).
    7: { intros vs IH w. destruct w as [| | | | | |ws| | |]; try reflexivity. rewrite cmp_values_by_list, cmp_values_list. intros A B.
         assert (A' : forall v s, In v vs -> text_held v s -> all_ascii s) by (intros v s Iv H; exact (A s (held_list _ _ _ Iv H))).
         assert (B' : forall v s, In v ws -> text_held v s -> all_ascii s) by (intros v s Iv H; exact (B s (held_list _ _ _ Iv H))).
         clear A B. revert ws A' B'. induction IH as [|v vs Hv IH IHl]; intros [|w ws] A B; try reflexivity. cbn [list_cmp].
         rewrite (Hv w (fun s => A v s (or_introl eq_refl)) (fun s => B w s (or_introl eq_refl))), IHl; [reflexivity| |];
           intros u s Iu; [exact (A u s (or_intror Iu))|exact (B u s (or_intror Iu))]. }
    all: intros; match goal with |- _ = cmp_values _ ?w => destruct w end; try reflexivity; cbn [cmp_values_by cmp_values]; rewrite !ascii_ref || idtac;
      rewrite !F; try reflexivity; match goal with H : forall s, text_held ?v s -> all_ascii s |- all_ascii _ => apply H; constructor end.
  Qed.
  Lemma entities_ascii fr d a b : ascii_entity a -> ascii_entity b -> compare_entities_by f fr d a b = compare_entities fr d a b.
  Proof.
    intros (A1 & A2 & A3) (B1 & B2 & B3).
    assert (X : cmp_by_field_by f fr a b = cmp_by_field fr a b).
    { destruct fr as [[]|n]; cbn [cmp_by_field_by cmp_by_field].
      - rewrite !F by assumption. reflexivity.
      - rewrite !F by assumption. reflexivity.
      - destruct (get_field a n) as [v|] eqn:Ga, (get_field b n) as [w|] eqn:Gb; try reflexivity.
        apply values_ascii; intros s; [exact (A3 n v s Ga)|exact (B3 n w s Gb)]. }
    destruct d; cbn [compare_entities_by compare_entities]; rewrite X; reflexivity.
  Qed.
  Lemma order_ascii fr d es : Forall ascii_entity es -> order_step_by f fr d es = order_step fr d es.
  Proof.
    intros A. unfold order_step_by, order_step. induction A as [|e es Ae A IH]; [reflexivity|]. cbn [sort_by]. rewrite IH.
    assert (B : Forall ascii_entity (sort_by (compare_entities fr d) es)) by (exact (Permutation_Forall (sort_perm _ es) A)).
    clear IH A. induction B as [|b bs Hb B IH]; [reflexivity|]. cbn [insert_by]. rewrite IH, (entities_ascii fr d e b Ae Hb). reflexivity.
  Qed.

  Variables (x : ext) (g : graph) (es : list entity) (ho : hash_order).
  Hypothesis B : built g es.
  Hypothesis O : orders ho.
  Hypothesis A : Forall ascii_entity es.
  Lemma good_ascii l : good es l -> Forall ascii_entity l.
  Proof. intros [I _]. rewrite Forall_forall in *. auto. Qed.
  Lemma ops_ascii ops : (forall cc c s, In (QWhere cc) ops -> In c (cc_conds cc) -> text_asked (c_value c) s -> all_ascii s) ->
    forall n l, good es l -> exec_ops_by f x g ho n ops l = exec_ops x g ho n ops l.
  Proof.
    induction ops as [|o ops IH]; intros Q n l G; [reflexivity|]. cbn [exec_ops_by exec_ops].
    assert (X : exec_op_by f x g ho n o l = exec_op x g ho n o l).
    { destruct o as [cc| | |]; try reflexivity; cbn [exec_op_by exec_op].
      - apply (where_ascii f F); [apply good_ascii, G|]. intros c s. exact (Q cc c s (or_introl eq_refl)).
      - rewrite order_ascii; [reflexivity|apply good_ascii, G]. }
    rewrite X. destruct (exec_op x g ho n o l) as [l'|] eqn:E; [|reflexivity]. cbn [bind]. apply IH.
    - intros cc c s I. exact (Q cc c s (or_intror I)).
    - exact (exec_op_good x g es B ho n o l l' O G E).
  Qed.
  Lemma execute_ascii q : ascii_query q -> execute_by f x g ho q = execute x g ho q.
  Proof.
    intros Q. unfold execute_by, execute. destruct (select_from g ho (q_from q)) as [l|] eqn:E; [|reflexivity]. cbn [bind].
    rewrite (ops_ascii (q_ops q) Q 0 l (select_good g es B ho _ l O E)). reflexivity.
  Qed.
End AsciiOrder.
