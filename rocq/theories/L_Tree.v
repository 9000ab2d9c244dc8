From Verif Require Import M_Graph.
From Verif Require Export S_Tree L_Str.
Require Import Lia.
Close Scope Z_scope.

(** ** Texts of nodes *)
Lemma boundary b s : starts_char s -> is_boundary (b ++ s) (length b) = true.
Proof.
  intros H. unfold is_boundary. destruct s as [|c s].
  - rewrite app_nil_r. replace (nth_error b (length b)) with (@None ascii) by (symmetry; apply nth_error_None; lia). apply Nat.eqb_refl.
  - rewrite nth_error_app2 by lia. rewrite Nat.sub_diag. cbn [nth_error]. cbn in H. now rewrite H.
Qed.
Lemma spans_text src t s : spans src t s -> get_node_text src t = Some s.
Proof.
  intros (k & m & cs & b & a & -> & -> & H1 & H2). unfold get_node_text.
  replace (length b <=? length b + length s) with true by (symmetry; apply Nat.leb_le; lia).
  rewrite boundary by assumption.
  replace (length b + length s) with (length (b ++ s)) at 1 by (rewrite app_length; lia).
  rewrite app_assoc, boundary by assumption. cbn [andb].
  f_equal. rewrite <- app_assoc, skipn_app, skipn_all, Nat.sub_diag. cbn [skipn app].
  replace (length b + length s - length b) with (length s) by lia.
  rewrite firstn_app, firstn_all, Nat.sub_diag. cbn [firstn]. apply app_nil_r.
Qed.

(** ** Children *)
Lemma first_found t k c : first_child t k c -> find_child_of_kind t k = Some c.
Proof.
  intros (b & a & E & K & F). unfold find_child_of_kind. rewrite E. clear E. induction b as [|x b IH]; cbn [app find].
  - rewrite K, str_eqb_refl. reflexivity.
  - inversion F; subst. destruct (str_eqb (t_kind x) (t_kind c)) eqn:Q; [apply str_eqb_eq in Q; contradiction|]. now apply IH.
Qed.
Lemma among_filter k us cs : among k us cs -> filter (fun c => str_eqb (t_kind c) k) cs = us.
Proof.
  induction 1 as [|c cs us N _ IH|c cs us K _ IH]; cbn [filter]; [reflexivity| |].
  - destruct (str_eqb (t_kind c) k) eqn:Q; [apply str_eqb_eq in Q; contradiction|exact IH].
  - rewrite K, str_eqb_refl. now rewrite IH.
Qed.
Lemma each_all {A B} (f : A -> option B) (R : B -> A -> Prop) ys xs :
  (forall y x, R y x -> f x = Some y) -> Forall2 R ys xs -> each f xs = Some ys.
Proof. intros H. induction 1 as [|y x ys xs Ry _ IH]; cbn [each]; [reflexivity|]. now rewrite (H _ _ Ry), IH. Qed.

(** ** Values *)
Lemma kind_of_name k : (forall n, k <> KUnknown n) -> node_kind (kind_name k) = k.
Proof. destruct k; intros H; try reflexivity. now contradiction (H name). Qed.

Definition items_in (src : str) :=
  fix items gs :=
    match gs with
    | [] => Some []
    | g :: gs' =>
        if str_eqb (t_kind g) (L "value") then
          match read_value_node src g, items gs' with Some v, Some vs => Some (v :: vs) | _, _ => None end
        else items gs'
    end.
Lemma items_in_all src us cs vs : among (L "value") us cs -> Forall2 (fun v u => read_value_node src u = Some v) vs us -> items_in src cs = Some vs.
Proof.
  intros A. revert vs. induction A as [|c cs us N _ IH|c cs us K _ IH]; intros vs F.
  - now inversion F.
  - cbn [items_in]. destruct (str_eqb (t_kind c) (L "value")) eqn:Q; [apply str_eqb_eq in Q; contradiction|]. exact (IH vs F).
  - inversion F as [|v x vs' l' Hv Ft]; subst. cbn [items_in]. rewrite K, str_eqb_refl, Hv. fold (items_in src). now rewrite (IH _ Ft).
Qed.
Fixpoint value_tree_read src v t (H : value_tree src v t) {struct H} : read_value_node src t = Some v.
Proof.
  destruct H as [k raw t c cs S C U N K | raw vs t c cs us S C K A F].
  - pose proof (spans_text _ _ _ S) as T. destruct t as [k0 m0 a0 b0 cs0]. cbn in C. subst cs0. destruct c as [k1 m1 a1 b1 gs]. cbn in K. subst k1.
    cbn [read_value_node]. rewrite T, kind_of_name by assumption. destruct k; try reflexivity. now contradiction N.
  - assert (F' : Forall2 (fun v u => read_value_node src u = Some v) vs us).
    { clear - F value_tree_read. induction F as [|v u vs us Hv _ IH]; constructor; [exact (value_tree_read _ _ _ Hv)|exact IH]. }
    clear value_tree_read F.
    pose proof (spans_text _ _ _ S) as T. destruct t as [k0 m0 a0 b0 cs0]. cbn in C. subst cs0. destruct c as [k1 m1 a1 b1 gs]. cbn in K. subst k1.
    cbn [t_children] in A. pose proof (items_in_all _ _ _ _ A F') as I.
    cbn [read_value_node]. rewrite T. change (node_kind (L "list")) with KList. cbv iota. fold (items_in src). now rewrite I.
Qed.
Lemma field_tree_read src f t : field_tree src f t -> read_field_node src t = Some f.
Proof.
  intros (name & v & n & u & -> & F1 & S & F2 & V). unfold read_field_node.
  rewrite (first_found _ _ _ F1), (first_found _ _ _ F2). cbn [text_if]. rewrite (spans_text _ _ _ S). cbn [option_map].
  now rewrite (value_tree_read _ _ _ V).
Qed.
Lemma fields_tree_read src fs t : fields_tree src fs t -> read_block src t = Some fs.
Proof.
  intros (us & A & F). unfold read_block, children_of_kind. rewrite (among_filter _ _ _ A).
  exact (each_all _ _ _ _ (field_tree_read src) F).
Qed.
Lemma nested_tree_read src b t : nested_tree src b t -> read_nested src t = Some b.
Proof.
  intros (k & fs & n & u & -> & F1 & S & F2 & B). unfold read_nested.
  rewrite (first_found _ _ _ F1), (first_found _ _ _ F2). cbn [text_if]. rewrite (spans_text _ _ _ S). cbn [option_map].
  now rewrite (fields_tree_read _ _ _ B).
Qed.
(** What is read of a block. *)
Definition block_read src b t : Prop :=
  match b with
  | EntityBlock n => t_kind t = L "entity_block" /\ read_entity_node src t = Some n
  | SchemaBlock n => t_kind t = L "schema_block" /\ read_schema_node src t = Some n
  end.
Lemma block_tree_read src b t : block_tree src b t -> block_read src b t.
Proof.
  destruct 1 as [k i fs t n m u K F1 S1 F2 S2 F3 B | name bs t n u us K F1 S1 F2 A F]; cbn [block_read]; (split; [assumption|]).
  - unfold read_entity_node. rewrite (first_found _ _ _ F1), (first_found _ _ _ F2), (first_found _ _ _ F3). cbn [text_if].
    rewrite (spans_text _ _ _ S1), (spans_text _ _ _ S2). cbn [option_map]. now rewrite (fields_tree_read _ _ _ B).
  - unfold read_schema_node. rewrite (first_found _ _ _ F1), (first_found _ _ _ F2). cbn [text_if].
    rewrite (spans_text _ _ _ S1). cbn [option_map]. unfold children_of_kind. rewrite (among_filter _ _ _ A).
    now rewrite (each_all _ _ _ _ (nested_tree_read src) F).
Qed.
Lemma blocks_read src bs cs : blocks_among src bs cs ->
  each (read_schema_node src) (filter (fun c => str_eqb (t_kind c) (L "schema_block")) cs) = Some (schemas_in bs) /\
  each (read_entity_node src) (filter (fun c => str_eqb (t_kind c) (L "entity_block")) cs) = Some (entities_in bs).
Proof.
  induction 1 as [|c cs bs N1 N2 _ [IH1 IH2]|c cs b bs B _ [IH1 IH2]]; [split; reflexivity| |].
  - cbn [filter]. apply str_eqb_neq in N1, N2. now rewrite N1, N2.
  - apply block_tree_read in B. destruct b as [n|n]; destruct B as [K R]; cbn [filter]; rewrite K.
    + change (str_eqb (L "schema_block") (L "schema_block")) with true. change (str_eqb (L "schema_block") (L "entity_block")) with false.
      cbv iota. cbn [each]. rewrite R, IH1. now split.
    + change (str_eqb (L "entity_block") (L "entity_block")) with true. change (str_eqb (L "entity_block") (L "schema_block")) with false.
      cbv iota. cbn [each]. rewrite R, IH2. now split.
Qed.
Lemma file_tree_read src bs t : file_tree src bs t -> read_tree src t = Some (tree_of bs).
Proof.
  intros (B & E). unfold read_tree, children_of_kind. destruct (blocks_read _ _ _ B) as [-> ->]. now rewrite E.
Qed.

(** ** Every text in the syntax has such a tree *)
Lemma alpha_not_cont c : is_alpha c = true \/ is_digit c = true \/ c = "_"%char -> is_cont c = false.
Proof. destruct c as [[] [] [] [] [] [] [] []]; intros [H|[H|H]]; try reflexivity; discriminate H. Qed.
Lemma gap_starts g r : gap g -> starts_char r -> starts_char (g ++ r).
Proof.
  destruct 1 as [|c g B|body g|body g]; intros Hr; [exact Hr| |reflexivity..].
  destruct B as [<-|[<-|[<-|[<-|[]]]]]; reflexivity.
Qed.
Lemma name_starts n r : name_syntax n -> starts_char (n ++ r).
Proof. intros (c & s & -> & [A|A] & _); apply alpha_not_cont; auto. Qed.
Lemma digits_starts n s r : 0 < n -> digits_syntax n s -> starts_char (s ++ r).
Proof. intros N [E F]. destruct F as [|c s D]; [cbn in E; lia|]. apply alpha_not_cont; auto. Qed.
Lemma number_starts s r : number_syntax s -> starts_char (s ++ r).
Proof.
  intros (sg & ints & rest & -> & [-> | ->] & (n & N & D) & _).
  - cbn [app]. rewrite <- app_assoc. exact (digits_starts _ _ _ N D).
  - reflexivity.
Qed.
Lemma date_starts s r : date_syntax s -> starts_char (s ++ r).
Proof. intros (y & m & d & -> & D & _). rewrite <- app_assoc. apply (digits_starts 4); [lia|exact D]. Qed.
Lemma literal_starts k s r : literal_syntax k s -> starts_char (s ++ r).
Proof.
  destruct 1; rewrite <- ?app_assoc; try reflexivity; try (now apply number_starts); try (now apply date_starts); try (now apply name_starts).
  destruct b; reflexivity.
Qed.
Lemma value_starts v r : value_syntax v -> starts_char (render_value v ++ r).
Proof. destruct 1 as [k raw H|]; [exact (literal_starts _ _ _ H)|reflexivity]. Qed.

Lemma no_errors us : Forall (fun u => has_error u = false) us -> existsb has_error us = false.
Proof. induction 1 as [|u us H _ IH]; cbn [existsb]; [reflexivity|]. now rewrite H. Qed.
Lemma among_self k us : Forall (fun u => t_kind u = k) us -> among k us us.
Proof. induction 1; constructor; assumption. Qed.
Lemma node_ok k a b cs : str_eqb k (L "ERROR") = false -> existsb has_error cs = false -> has_error (Node k false a b cs) = false.
Proof. intros H E. cbn [has_error]. now rewrite H, E. Qed.
(** A node over [s] in [before ++ s ++ after]. *)
Definition over (before s k : str) (cs : list tree) : tree := Node k false (length before) (length before + length s) cs.
Lemma over_spans before s after k cs : starts_char (s ++ after) -> starts_char after -> spans (before ++ s ++ after) (over before s k cs) s.
Proof. intros H1 H2. exists k, false, cs, before, after. repeat split; assumption. Qed.
Lemma first_here k c cs t : t_children t = c :: cs -> t_kind c = k -> first_child t k c.
Proof. intros E K. exists [], cs. now repeat split. Qed.
Lemma first_next k c b cs t : t_children t = b ++ c :: cs -> t_kind c = k -> Forall (fun x => t_kind x <> k) b -> first_child t k c.
Proof. intros E K F. exists b, cs. now repeat split. Qed.

Lemma over_ok before s k cs : str_eqb k (L "ERROR") = false -> existsb has_error cs = false -> has_error (over before s k cs) = false.
Proof. apply node_ok. Qed.

(** Trees of one kind for these parts, without errors. *)
Definition trees {A} (R : A -> tree -> Prop) (k : str) (l : list A) : Prop :=
  exists us, Forall (fun u => t_kind u = k) us /\ Forall (fun u => has_error u = false) us /\ Forall2 R l us.
Lemma trees_nil {A} (R : A -> tree -> Prop) k : trees R k [].
Proof. exists []. repeat split; constructor. Qed.
Lemma trees_cons {A} (R : A -> tree -> Prop) k x l u : t_kind u = k -> has_error u = false -> R x u -> trees R k l -> trees R k (x :: l).
Proof. intros K E Rx (us & F1 & F2 & F3). exists (u :: us). repeat split; constructor; assumption. Qed.

Definition value_has_tree (v : vnode) : Prop := forall pre post, starts_char post ->
  exists u, t_kind u = L "value" /\ has_error u = false /\ value_tree (pre ++ render_value v ++ post) v u.
Lemma items_have_trees vs t : items_syntax vs t -> Forall value_has_tree vs -> Forall value_syntax vs -> forall pre post,
  trees (value_tree (pre ++ t ++ post)) (L "value") vs.
Proof.
  induction 1 as [|v g G|v g g' vs t G G' _ IH]; intros Hs Vs pre post.
  - apply trees_nil.
  - inversion Hs as [|? ? H ?]; subst. rewrite <- !app_assoc.
    destruct (H pre (g ++ L "]" ++ post)) as (u & K & E & T); [now apply gap_starts|].
    exact (trees_cons _ _ _ _ _ K E T (trees_nil _ _)).
  - inversion Hs as [|? ? H ?]; subst. inversion Vs; subst. rewrite <- !app_assoc.
    destruct (H pre (g ++ L "," ++ g' ++ t ++ post)) as (u & K & E & T); [now apply gap_starts|].
    apply (trees_cons _ _ _ _ u); [assumption..|].
    specialize (IH ltac:(assumption) ltac:(assumption) (pre ++ render_value v ++ g ++ L "," ++ g') post).
    rewrite <- !app_assoc in IH. exact IH.
Qed.
Fixpoint values_have_trees v (H : value_syntax v) {struct H} : value_has_tree v.
Proof.
  destruct H as [k raw H|g vs t G I F].
  - clear values_have_trees. intros pre post P. exists (over pre raw (L "value") [over pre raw (kind_name k) []]).
    split; [reflexivity|]. split; [destruct H; reflexivity|].
    eapply vt_literal; [|reflexivity|destruct H; discriminate|destruct H; discriminate|reflexivity].
    apply over_spans; [exact (literal_starts _ _ _ H)|exact P].
  - assert (Hs : Forall value_has_tree vs) by (clear - F values_have_trees; induction F; constructor; [apply values_have_trees; assumption|assumption]).
    clear values_have_trees. intros pre post P.
    destruct (items_have_trees _ _ I Hs F (pre ++ L "[" ++ g) post) as (us & F1 & F2 & F3).
    exists (over pre (L "[" ++ g ++ t) (L "value") [over pre (L "[" ++ g ++ t) (L "list") us]).
    split; [reflexivity|]. split.
    + unfold over. apply node_ok; [reflexivity|]. cbn [existsb]. rewrite node_ok; [reflexivity|reflexivity|exact (no_errors _ F2)].
    + eapply vt_list with (us := us); [|reflexivity|reflexivity|exact (among_self _ _ F1)|].
      * apply over_spans; [reflexivity|exact P].
      * rewrite <- !app_assoc in F3. cbn [render_value]. rewrite <- !app_assoc. exact F3.
Qed.
Lemma fields_start fs t post : fields_syntax fs t -> starts_char (t ++ post).
Proof. destruct 1; [reflexivity|]. rewrite <- app_assoc. now apply name_starts. Qed.
Lemma fields_have_trees fs t : fields_syntax fs t -> forall pre post, trees (field_tree (pre ++ t ++ post)) (L "field") fs.
Proof.
  induction 1 as [|name g1 g2 v g3 fs t N G1 G2 V G3 _ Ft IH]; intros pre post; [apply trees_nil|].
  rewrite <- !app_assoc.
  destruct (values_have_trees v V (pre ++ name ++ g1 ++ L "=" ++ g2) (g3 ++ t ++ post)) as (u & K & E & T).
  { apply gap_starts; [assumption|]. now apply (fields_start fs). }
  rewrite <- !app_assoc in T.
  apply (trees_cons _ _ _ _ (over pre name (L "field") [over pre name (L "field_name") []; u])); [reflexivity| | |].
  - apply node_ok; [reflexivity|]. cbn [existsb]. now rewrite E.
  - exists name, v, (over pre name (L "field_name") []), u. split; [reflexivity|]. split; [now eapply first_here|]. split.
    + apply over_spans; [now apply name_starts|]. apply gap_starts; [assumption|reflexivity].
    + split; [|exact T]. eapply first_next with (b := [_]); [reflexivity|exact K|]. constructor; [discriminate|constructor].
  - specialize (IH (pre ++ name ++ g1 ++ L "=" ++ g2 ++ render_value v ++ g3) post). rewrite <- !app_assoc in IH. exact IH.
Qed.
Lemma blocks_have_trees bs t : blocks_syntax bs t -> forall pre post, trees (nested_tree (pre ++ t ++ post)) (L "nested_block") bs.
Proof.
  induction 1 as [|g1 g2 fs body g3 bs t G1 G2 F G3 _ IH]; intros pre post; [apply trees_nil|].
  rewrite <- !app_assoc.
  destruct (fields_have_trees _ _ F (pre ++ L "field" ++ g1 ++ L "{" ++ g2) (g3 ++ t ++ post)) as (us & F1 & F2 & F3).
  rewrite <- !app_assoc in F3.
  apply (trees_cons _ _ _ _ (over pre (L "field") (L "nested_block") [over pre (L "field") (L "block_type") []; over pre (L "field") (L "block") us])); [reflexivity| | |].
  - apply node_ok; [reflexivity|]. cbn [existsb]. rewrite (over_ok _ _ (L "block")); [reflexivity|reflexivity|exact (no_errors _ F2)].
  - eexists _, _, _, _. split; [reflexivity|]. split; [now eapply first_here|]. split.
    + apply over_spans; [reflexivity|]. apply gap_starts; [assumption|reflexivity].
    + split; [eapply first_next with (b := [_]); [reflexivity|reflexivity|]; constructor; [discriminate|constructor]|].
      exists us. split; [exact (among_self _ _ F1)|exact F3].
  - specialize (IH (pre ++ L "field" ++ g1 ++ L "{" ++ g2 ++ body ++ g3) post). rewrite <- !app_assoc in IH. exact IH.
Qed.
Lemma file_has_trees bs t : file_syntax bs t -> forall pre, exists cs, blocks_among (pre ++ t) bs cs /\ existsb has_error cs = false.
Proof.
  induction 1 as [g G|g ty g1 i g2 g3 fs body bs rest G N _ G1 _ I G2 G3 F _ IH|g g1 n g2 g3 ns body bs rest G G1 _ N G2 G3 B _ IH]; intros pre.
  - exists []. split; [constructor|reflexivity].
  - destruct (IH (pre ++ g ++ ty ++ g1 ++ i ++ g2 ++ L "{" ++ g3 ++ body)) as (cs & C & E). rewrite <- !app_assoc in C.
    destruct (fields_have_trees _ _ F (pre ++ g ++ ty ++ g1 ++ i ++ g2 ++ L "{" ++ g3) rest) as (us & F1 & F2 & F3).
    rewrite <- !app_assoc in F3.
    exists (over [] [] (L "entity_block") [over (pre ++ g) ty (L "entity_type") []; over (pre ++ g ++ ty ++ g1) i (L "entity_id") []; over [] [] (L "block") us] :: cs).
    split.
    + constructor; [|exact C]. eapply bt_entity with (u := over [] [] (L "block") us); [reflexivity|now eapply first_here| | | | |exists us; split; [exact (among_self _ _ F1)|exact F3]].
      * rewrite app_assoc. apply over_spans; [now apply name_starts|]. apply gap_starts; [assumption|]. now apply name_starts.
      * eapply first_next with (b := [_]); [reflexivity|reflexivity|]. constructor; [discriminate|constructor].
      * replace (pre ++ g ++ ty ++ g1 ++ i ++ g2 ++ L "{" ++ g3 ++ body ++ rest) with ((pre ++ g ++ ty ++ g1) ++ i ++ g2 ++ L "{" ++ g3 ++ body ++ rest) by now rewrite <- !app_assoc.
        apply over_spans; [now apply name_starts|]. apply gap_starts; [assumption|reflexivity].
      * eapply first_next with (b := [_; _]); [reflexivity|reflexivity|]. constructor; [discriminate|constructor; [discriminate|constructor]].
    + cbn [existsb]. rewrite E, orb_false_r. apply node_ok; [reflexivity|]. cbn [existsb]. rewrite (over_ok _ _ (L "block")); [reflexivity|reflexivity|exact (no_errors _ F2)].
  - destruct (IH (pre ++ g ++ L "schema" ++ g1 ++ n ++ g2 ++ L "{" ++ g3 ++ body)) as (cs & C & E). rewrite <- !app_assoc in C.
    destruct (blocks_have_trees _ _ B (pre ++ g ++ L "schema" ++ g1 ++ n ++ g2 ++ L "{" ++ g3) rest) as (us & F1 & F2 & F3).
    rewrite <- !app_assoc in F3.
    exists (over [] [] (L "schema_block") [over (pre ++ g ++ L "schema" ++ g1) n (L "schema_name") []; over [] [] (L "block") us] :: cs).
    split.
    + constructor; [|exact C]. eapply bt_schema with (u := over [] [] (L "block") us); [reflexivity|now eapply first_here| | |exact (among_self _ _ F1)|exact F3].
      * replace (pre ++ g ++ L "schema" ++ g1 ++ n ++ g2 ++ L "{" ++ g3 ++ body ++ rest) with ((pre ++ g ++ L "schema" ++ g1) ++ n ++ g2 ++ L "{" ++ g3 ++ body ++ rest) by now rewrite <- !app_assoc.
        apply over_spans; [now apply name_starts|]. apply gap_starts; [assumption|reflexivity].
      * eapply first_next with (b := [_]); [reflexivity|reflexivity|]. constructor; [discriminate|constructor].
    + cbn [existsb]. rewrite E, orb_false_r. apply node_ok; [reflexivity|]. cbn [existsb]. rewrite (over_ok _ _ (L "block")); [reflexivity|reflexivity|exact (no_errors _ F2)].
Qed.
Lemma every_text_has_a_tree bs text : file_syntax bs text -> exists t, file_tree text bs t.
Proof.
  intros F. destruct (file_has_trees _ _ F []) as (cs & C & E). exists (Node (L "source_file") false 0 0 cs).
  split; [exact C|]. now apply node_ok.
Qed.
