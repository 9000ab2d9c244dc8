From Verif Require Import M_Graph.
From Verif Require Export L_Tree L_Server L_History.
From Verif Require Import L_Fs.
Require Import Lia.
Close Scope Z_scope.

(** ** Reading never fails *)
Lemma in_text_spans src t : in_text src t -> exists s, spans src t s.
Proof. destruct 1 as [k m a b cs s S _]. exists s. exact S. Qed.
Lemma in_text_text src t : in_text src t -> exists s, get_node_text src t = Some s.
Proof. intros H. destruct (in_text_spans _ _ H) as [s S]. exists s. exact (spans_text _ _ _ S). Qed.
Lemma in_text_children src t : in_text src t -> Forall (in_text src) (t_children t).
Proof. destruct 1. assumption. Qed.
Lemma in_text_found src t k c : in_text src t -> find_child_of_kind t k = Some c -> in_text src c.
Proof. intros H F. apply find_some in F as [I _]. exact (proj1 (Forall_forall _ _) (in_text_children _ _ H) _ I). Qed.
Lemma text_if_total src t k : in_text src t -> exists o, text_if src (find_child_of_kind t k) = Some o.
Proof.
  intros H. destruct (find_child_of_kind t k) as [c|] eqn:F; cbn [text_if]; [|eauto].
  destruct (in_text_text _ _ (in_text_found _ _ _ _ H F)) as [s ->]. cbn. eauto.
Qed.
Lemma each_total {A B} (f : A -> option B) l : Forall (fun x => exists y, f x = Some y) l -> exists ys, each f l = Some ys.
Proof. induction 1 as [|x l (y & E) _ (ys & IH)]; cbn [each]; [eauto|]. rewrite E, IH. eauto. Qed.
Lemma of_kind_total {B} src t k (f : tree -> option B) : in_text src t -> (forall c, in_text src c -> exists y, f c = Some y) ->
  exists ys, each f (children_of_kind t k) = Some ys.
Proof.
  intros H T. apply each_total, Forall_forall. intros c I. unfold children_of_kind in I. apply filter_In in I as [I _].
  apply T. exact (proj1 (Forall_forall _ _) (in_text_children _ _ H) _ I).
Qed.
Fixpoint tree_size (t : tree) : nat := let (_, _, _, _, cs) := t in S (fold_right (fun c n => tree_size c + n) 0 cs).
Lemma child_smaller c cs : In c cs -> tree_size c <= fold_right (fun c n => tree_size c + n) 0 cs.
Proof. induction cs as [|x cs IH]; [contradiction|]. intros [<-|I]; cbn [fold_right]; [lia|]. specialize (IH I). lia. Qed.
Lemma value_total src n : forall t, tree_size t < n -> in_text src t -> exists v, read_value_node src t = Some v.
Proof.
  induction n as [|n IH]; intros t Sz H; [lia|]. destruct (in_text_text _ _ H) as [s T]. pose proof (in_text_children _ _ H) as F.
  destruct t as [k m a b [|[k1 m1 a1 b1 gs] cs]]; cbn [read_value_node]; rewrite T; [eauto|]. cbn [t_children] in F.
  assert (X : exists vs, items_in src gs = Some vs).
  { inversion F as [|? ? F1 _]; subst. pose proof (in_text_children _ _ F1) as G. cbn [t_children] in G.
    cbn [tree_size fold_right] in Sz. assert (Sz' : fold_right (fun c n => tree_size c + n) 0 gs < n) by lia. clear - G Sz' IH.
    induction gs as [|g gs IHg]; [cbn; eauto|]. cbn [fold_right] in Sz'. inversion G as [|? ? G1 G2]; subst.
    destruct (IHg G2 ltac:(lia)) as [vs E]. cbn [items_in]. fold (items_in src). rewrite E. destruct (str_eqb (t_kind g) (L "value")); [|eauto].
    destruct (IH g ltac:(lia) G1) as [v ->]. eauto. }
  destruct X as [vs X]. fold (items_in src). rewrite X. destruct (node_kind k1); cbn [option_map]; eauto.
Qed.
Lemma field_total src t : in_text src t -> exists f, read_field_node src t = Some f.
Proof.
  intros H. unfold read_field_node. destruct (text_if_total src t (L "field_name") H) as [o ->].
  destruct (find_child_of_kind t (L "value")) as [c|] eqn:F; [|eauto].
  destruct (value_total src (S (tree_size c)) c (Nat.lt_succ_diag_r _) (in_text_found _ _ _ _ H F)) as [v ->]. cbn. eauto.
Qed.
Lemma block_total src t : in_text src t -> exists fs, read_block src t = Some fs.
Proof. intros H. exact (of_kind_total _ _ _ _ H (field_total src)). Qed.
Lemma nested_total src t : in_text src t -> exists b, read_nested src t = Some b.
Proof.
  intros H. unfold read_nested. destruct (text_if_total src t (L "block_type") H) as [o ->].
  destruct (find_child_of_kind t (L "block")) as [c|] eqn:F; [|eauto].
  destruct (block_total src c (in_text_found _ _ _ _ H F)) as [v ->]. cbn. eauto.
Qed.
Lemma schema_total src t : in_text src t -> exists n, read_schema_node src t = Some n.
Proof.
  intros H. unfold read_schema_node. destruct (text_if_total src t (L "schema_name") H) as [o ->].
  destruct (find_child_of_kind t (L "block")) as [c|] eqn:F; [|eauto].
  destruct (of_kind_total src c (L "nested_block") _ (in_text_found _ _ _ _ H F) (nested_total src)) as [v ->]. cbn. eauto.
Qed.
Lemma entity_total src t : in_text src t -> exists n, read_entity_node src t = Some n.
Proof.
  intros H. unfold read_entity_node. destruct (text_if_total src t (L "entity_type") H) as [o ->]. destruct (text_if_total src t (L "entity_id") H) as [o' ->].
  destruct (find_child_of_kind t (L "block")) as [c|] eqn:F; [|eauto].
  destruct (block_total src c (in_text_found _ _ _ _ H F)) as [v ->]. cbn. eauto.
Qed.
Lemma tree_total src t : in_text src t -> exists p, read_tree src t = Some p /\ ps_error p = has_error t.
Proof.
  intros H. unfold read_tree. destruct (of_kind_total src t (L "schema_block") _ H (schema_total src)) as [ss ->].
  destruct (of_kind_total src t (L "entity_block") _ H (entity_total src)) as [es ->]. eexists. split; reflexivity.
Qed.
Lemma other_skipped src k m a b k' m' a' b' l c r : t_kind c <> L "entity_block" -> t_kind c <> L "schema_block" ->
  same_blocks (read_tree src (Node k m a b (l ++ c :: r))) (read_tree src (Node k' m' a' b' (l ++ r))).
Proof.
  intros N1 N2. apply str_eqb_neq in N1, N2. unfold read_tree, children_of_kind. cbn [t_children]. rewrite !filter_app. cbn [filter]. rewrite N1, N2.
  destruct (each (read_schema_node src) _); [|exact I]. destruct (each (read_entity_node src) _); [|exact I]. split; reflexivity.
Qed.

(** ** Edits *)
Lemma write_error_free c w d st rel content force d' st' a : ordinary c w d -> plain rel -> is_text content = true ->
  write_source c d st rel content force = (d', st', a) ->
  ordinary c w d' /\ forall q s, node_at d' q = Some (File s) -> node_at d q = Some (File s) \/ error_free c s.
Proof.
  intros O P TC H. pose proof O as (RI & NL & T & TX). assert (U : unlinked c d w rel) by (right; auto).
  assert (TT : target_is_text c d w rel) by (intros q s _ I F; eapply TX; eauto).
  assert (T' : tidy d') by (eapply tidy_write_source; eauto).
  assert (K : (a = Refused \/ (exists b, a = Invalid b)) \/
              (error_free c content /\ ends_with rel (L ".firm") = true /\ (wrote_over c w d d' rel content \/ wrote_new c d d' rel content))).
  { unfold write_source, validate_and_write in H. destruct (c_parse c content) as [ps|] eqn:Pc; [|injection H as <- <- <-; auto].
    destruct (ps_error ps) eqn:Pe; [injection H as <- <- <-; auto|]. destruct (write_source_file c d rel content) as [d1 ok] eqn:Wr.
    destruct (write_file_spec c d w rel content d1 ok RI Wr) as [(-> & _)|(-> & EW & K)]; [injection H as <- <- <-; auto|].
    unfold finish_write in H. assert (EF : error_free c content) by (exists ps; auto).
    destruct (rebuild c d1) as [s|e|]; [injection H as <- <- <-; auto| |injection H as <- <- <-; auto].
    destruct force; [injection H as <- <- <-; auto|]. destruct (rollback_write c d1 rel _) as [d2 b]. injection H as <- <- <-. eauto. }
  destruct K as [K|(EF & EW & K)].
  - destruct (rejected_write _ _ _ _ _ _ _ _ _ _ RI U TT H K) as (_ & X & S' & _). split; [eapply ordinary_dirs; eauto|].
    intros q s E. destruct (X q) as [Q|[_ Q]]; [left; congruence|congruence].
  - destruct K as [(q & old & _ & _ & F & ->)|K].
    + split; [eapply ordinary_set; eauto|]. intros p s E. rewrite node_set in E by exact (file_not_root _ _ _ F).
      destruct (place_eqb q p); [injection E as <-; auto|auto].
    + destruct (wrote_new_vacant c d d' w rel content RI U EW K) as (d2 & p & r & n & X & SX & _ & PN & _ & Dr & Nq & -> & _).
      assert (NE : r ++ [n] <> []) by (destruct r; discriminate). split.
      * split; [apply runs_set; [eapply runs_dirs; eauto|auto|apply sound_add; auto]|]. split; [apply links_set; [eapply links_dirs; eauto|exact NE]|].
        split; [exact T'|]. apply text_set; auto. eapply text_dirs; eauto.
      * intros q s E. rewrite node_set in E by exact NE. destruct (place_eqb (r ++ [n]) q); [injection E as <-; auto|].
        destruct (X q) as [Q|[_ Q]]; [left; congruence|congruence].
Qed.
Lemma edit_error_free c w d st r d' st' a : ordinary c w d -> plain_request r -> handle c d st r = (d', st', a) ->
  ordinary c w d' /\ forall q s, node_at d' q = Some (File s) -> node_at d q = Some (File s) \/ error_free c s.
Proof.
  intros O R H. pose proof O as (RI & NL & T & TX). destruct r as [rel content force|rel old new all force|rel force|]; cbn [handle plain_request] in *.
  - destruct R as (P & TC). eapply write_error_free; eauto.
  - destruct R as (P & TO & TN). destruct (replace_effect c d w st rel old new all force d' st' a RI H) as [(-> & -> & _)|(q & text & content & n & Rq & I & F & TT & RP & NE & -> & A)].
    + split; [exact O|auto].
    + pose proof (replaced_text text old new all content n NE TT TO TN RP) as TC. split; [eapply ordinary_set; eauto|].
      intros p s E. rewrite node_set in E by exact (file_not_root _ _ _ F). destruct (place_eqb q p) eqn:Q; [|auto].
      injection E as <-. apply place_eqb_eq in Q as <-.
      unfold replace_source in H. destruct (replace_in_file c d rel old new all) as [| |content' n'] eqn:RI'.
      * injection H as X _ _. left. rewrite X, node_set, place_eqb_refl by exact (file_not_root _ _ _ F). reflexivity.
      * injection H as X _ _. left. rewrite X, node_set, place_eqb_refl by exact (file_not_root _ _ _ F). reflexivity.
      * assert (TC' : is_text content' = true).
        { unfold replace_in_file in RI'. destruct old as [|o old]; [discriminate|]. destruct (read_source_file c d rel) as [text'| |] eqn:Rd; try discriminate.
          destruct (read_spec c d w rel text' RI Rd) as (q' & _ & _ & _ & TX').
          exact (replaced_text text' _ _ _ _ _ NE TX' TO TN RI'). }
        apply (proj2 (write_error_free c w d st rel content' force _ _ _ O P TC' H)).
        rewrite node_set, place_eqb_refl by exact (file_not_root _ _ _ F). reflexivity.
  - unfold delete_source in H. destruct (delete_file c d rel) as [[d1 content]|] eqn:DF; [|injection H as <- <- <-; split; [exact O|auto]].
    destruct (rollback_deleted c d w rel d1 content RI DF) as (q & Rq & I & F & TC & -> & _ & RB). rewrite RB in H.
    assert (D1 : ordinary c w (unset_node d q) /\ forall p s, node_at (unset_node d q) p = Some (File s) -> node_at d p = Some (File s) \/ error_free c s).
    { split; [eapply ordinary_unset; eauto|]. intros p s E. rewrite node_unset in E by exact (file_not_root _ _ _ F).
      destruct (place_eqb q p); [discriminate|auto]. }
    destruct (rebuild c (unset_node d q)) as [s|e|]; [injection H as <- <- <-; exact D1| |injection H as <- <- <-; exact D1].
    destruct force; injection H as <- <- <-; [exact D1|]. pose proof (put_back d q content F) as PB. split.
    + eapply ordinary_dirs; eauto using same_dirs.
      * eapply same_sound; [exact PB|exact (proj1 RI)].
      * apply tidy_set, tidy_unset. exact T.
    + intros p s E. left. rewrite <- PB. exact E.
  - unfold build_tool in H. destruct (rebuild c d); injection H as <- <- <-; split; auto.
Qed.

Lemma edits_error_free c w rs : forall d st d' st' l, ordinary c w d -> Forall plain_request rs -> serve c d st rs = (d', st', l) ->
  ordinary c w d' /\ forall q s, node_at d' q = Some (File s) -> node_at d q = Some (File s) \/ error_free c s.
Proof.
  induction rs as [|r rs IH]; intros d st d' st' l O F H; cbn [serve] in H; [injection H as <- <- <-; split; auto|].
  inversion F as [|? ? F1 F2]; subst. destruct (handle c d st r) as [[d1 st1] a] eqn:Hd. destruct (serve c d1 st1 rs) as [[d2 st2] l2] eqn:Sv.
  injection H as <- <- <-. destruct (edit_error_free c w d st r d1 st1 a O F1 Hd) as (O1 & E1).
  destruct (IH d1 st1 d2 st2 l2 O1 F2 Sv) as (O2 & E2). split; [exact O2|].
  intros q s E. destruct (E2 q s E) as [X|X]; auto.
Qed.

(** ** Loading *)
Lemma omap_ext {E A B} (f g : A -> outcome E B) l : (forall x, f x = g x) -> omap f l = omap g l.
Proof. intros H. induction l as [|x l IH]; cbn [omap]; [reflexivity|]. rewrite H. destruct (g x); cbn [obind]; try reflexivity. now rewrite IH. Qed.
Lemma load_file_without c d rel : load_file (without_errors c) d rel = load_file c d rel.
Proof.
  unfold load_file, without_errors. cbn [c_ws c_links c_parse]. destruct (read_text (c_links c) d (c_ws c ++ rel)) as [s|]; [|reflexivity].
  destruct (c_parse c s); reflexivity.
Qed.
Lemma load_dir_without c d n : forall rel, load_dir n (without_errors c) d rel = load_dir n c d rel.
Proof.
  induction n as [|n IH]; intros rel; [reflexivity|]. cbn [load_dir]. cbn [without_errors c_ws c_links].
  destruct (read_dir (c_links c) d (c_ws c ++ rel)) as [names|]; [|reflexivity]. f_equal. apply omap_ext. intros x.
  destruct (stat (c_links c) d (c_ws c ++ rel ++ [x])) as [[| |]|]; auto. destruct (is_firm_file x); [|reflexivity].
  now rewrite load_file_without.
Qed.
Lemma rebuild_without c d : rebuild (without_errors c) d = rebuild c d.
Proof. unfold rebuild, load_directory. cbn [without_errors c_links]. rewrite load_dir_without. reflexivity. Qed.

(** ** Errors in a tree *)
Fixpoint has_error_damaged t : has_error t = true -> damaged t.
Proof.
  destruct t as [k m a b cs]. cbn [has_error]. intros H. apply orb_true_iff in H. destruct H as [H|H].
  - apply orb_true_iff in H. destruct H as [H| ->]; [apply str_eqb_eq in H; subst k; constructor|constructor].
  - assert (X : exists c, In c cs /\ damaged c).
    { induction cs as [|c cs IH]; [discriminate|]. cbn [existsb] in H. destruct (has_error c) eqn:E.
      - exists c. split; [now left|exact (has_error_damaged c E)].
      - destruct (IH H) as (x & I & D). exists x. split; [now right|exact D]. }
    destruct X as (c & I & D). exact (damaged_inside k m a b cs c I D).
Qed.
Lemma has_error_iff t : has_error t = true <-> damaged t.
Proof.
  split; [apply has_error_damaged|]. intros D. induction D as [m a b cs|k a b cs|k m a b cs c I D IH]; cbn [has_error].
  - now rewrite str_eqb_refl.
  - now rewrite orb_true_r.
  - apply orb_true_iff. right. apply existsb_exists. eauto.
Qed.
Lemma read_tree_error src t p : read_tree src t = Some p -> ps_error p = has_error t.
Proof.
  unfold read_tree. destruct (each _ _) as [ss|]; [|discriminate]. destruct (each _ _) as [es|]; [|discriminate]. intros H. now injection H as <-.
Qed.
