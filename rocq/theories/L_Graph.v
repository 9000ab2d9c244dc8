(** Proofs about the entity graph. *)
From Coq Require Import Lia Permutation Sorted.
From Verif Require Import M_Graph S_Graph L_Str.

(** Induction on values through nested lists. *)
Lemma value_ind' (P : value -> Prop) :
  (forall b, P (VBool b)) -> (forall s, P (VStr s)) -> (forall z, P (VInt z)) ->
  (forall f, P (VFloat f)) -> (forall a c, P (VCur a c)) -> (forall r, P (VRef r)) ->
  (forall vs, Forall P vs -> P (VList vs)) ->
  (forall d, P (VDate d)) -> (forall p, P (VPath p)) -> (forall s, P (VEnum s)) ->
  forall v, P v.
Proof.
  intros H1 H2 H3 H4 H5 H6 H7 H8 H9 H10.
  fix IH 1. intros [b|s|z|f|a c|r|vs|d|p|s];
    [apply H1|apply H2|apply H3|apply H4|apply H5|apply H6| |apply H8|apply H9|apply H10].
  apply H7. induction vs as [|v vs IHvs]; constructor; [apply IH|exact IHvs].
Qed.

(** Association lists. *)
Lemma assoc_set_same {A} k (a : A) l : assoc k (assoc_set k a l) = Some a.
Proof.
  induction l as [|[k' a'] l IH]; cbn; [rewrite str_eqb_refl; auto|].
  destruct (str_eqb k' k) eqn:E; cbn; rewrite E; auto.
Qed.
Lemma assoc_set_other {A} k k2 (a : A) l : k2 <> k -> assoc k2 (assoc_set k a l) = assoc k2 l.
Proof.
  intros N. induction l as [|[k' a'] l IH]; cbn.
  - destruct (str_eqb_spec k k2); congruence.
  - destruct (str_eqb_spec k' k); cbn; destruct (str_eqb_spec k' k2); auto; congruence.
Qed.
Lemma assoc_none {A} k (l : list (str * A)) : assoc k l = None <-> ~ In k (map fst l).
Proof.
  induction l as [|[k' a'] l IH]; cbn; [split; auto|].
  destruct (str_eqb_spec k' k); split; try congruence.
  - intros H; exfalso; auto.
  - intros H [|I]; [auto|]. apply IH in H; auto.
  - intros H; apply IH; intros I; auto.
Qed.
Lemma assoc_set_fresh {A} k (a : A) l : assoc k l = None -> assoc_set k a l = l ++ [(k, a)].
Proof.
  induction l as [|[k' a'] l IH]; cbn; auto.
  destruct (str_eqb k' k); [congruence|]. intros H; rewrite IH; auto.
Qed.
Lemma assoc_set_keys {A} k (a : A) l :
  map fst (assoc_set k a l) = map fst l ++ (if str_in k (map fst l) then [] else [k]).
Proof.
  induction l as [|[k' a'] l IH]; cbn; auto.
  destruct (str_eqb_spec k' k) as [->|N].
  - rewrite str_eqb_refl. cbn. rewrite app_nil_r. auto.
  - cbn. rewrite IH. rewrite str_eqb_sym. destruct (str_eqb_spec k' k); [congruence|]. auto.
Qed.

(** The entity map: positions of the ids. *)
Fixpoint mk_map (n : nat) (es : list entity) : list (entity_id * nat) :=
  match es with [] => [] | e :: es' => (e_id e, n) :: mk_map (S n) es' end.

Lemma mk_map_app n es es' : mk_map n (es ++ es') = mk_map n es ++ mk_map (n + length es) es'.
Proof.
  revert n; induction es as [|e es IH]; intros n; cbn; [rewrite Nat.add_0_r; auto|].
  rewrite IH. do 3 f_equal. lia.
Qed.

Lemma mk_map_lookup n es id :
  match assoc id (mk_map n es) with
  | Some m => n <= m < n + length es /\ nth_error es (m - n) = lookup es id /\ lookup es id <> None
  | None => lookup es id = None
  end.
Proof.
  unfold lookup. revert n; induction es as [|e es IH]; intros n; cbn; auto.
  destruct (str_eqb (e_id e) id) eqn:E.
  - rewrite Nat.sub_diag. cbn. repeat split; try lia; congruence.
  - specialize (IH (S n)). destruct (assoc id (mk_map (S n) es)) as [m|]; auto.
    destruct IH as (H1 & H2 & H3). repeat split; try lia; auto.
    replace (m - n) with (S (m - S n)) by lia. auto.
Qed.

Fixpoint positions (t : entity_type) (n : nat) (es : list entity) : list nat :=
  match es with
  | [] => []
  | e :: es' => if str_eqb (e_type e) t then n :: positions t (S n) es' else positions t (S n) es'
  end.

Lemma positions_app t n es es' :
  positions t n (es ++ es') = positions t n es ++ positions t (n + length es) es'.
Proof.
  revert n; induction es as [|e es IH]; intros n; cbn; [rewrite Nat.add_0_r; auto|].
  rewrite IH. replace (n + S (length es)) with (S n + length es) by lia.
  destruct (str_eqb (e_type e) t); auto.
Qed.

Definition types_ok (ts : list (entity_type * list nat)) (es : list entity) : Prop :=
  NoDup (map fst ts) /\
  forall t, assoc t ts = match positions t 0 es with [] => None | l => Some l end.

Definition edges_ok (g : graph) : Prop :=
  forall a b r, In (a, b, r) (g_edges g) -> a < length (g_nodes g) /\ b < length (g_nodes g).

Record Inv (g : graph) (es : list entity) : Prop := {
  inv_nodes : g_nodes g = es;
  inv_map : g_map g = mk_map 0 es;
  inv_nodup : NoDup (map e_id es);
  inv_types : types_ok (g_types g) es;
  inv_edges : edges_ok g
}.

Lemma inv_new : Inv graph_new [].
Proof.
  constructor; cbn; auto.
  - constructor.
  - split; [constructor|reflexivity].
  - intros a b r [].
Qed.

Lemma assoc_map_lookup g es id : Inv g es ->
  match assoc id (g_map g) with
  | Some m => m < length es /\ nth_error es m = lookup es id /\ lookup es id <> None
  | None => lookup es id = None
  end.
Proof.
  intros I. rewrite (inv_map _ _ I). pose proof (mk_map_lookup 0 es id) as H.
  destruct (assoc id (mk_map 0 es)) as [m|]; auto.
  rewrite Nat.sub_0_r in H. destruct H as (H1 & H2 & H3). repeat split; auto; lia.
Qed.

Lemma lookup_none es id : lookup es id = None <-> ~ known es id.
Proof.
  unfold lookup, known. split.
  - intros H (e & I & E). eapply find_none in H; eauto. cbn in H. subst. rewrite str_eqb_refl in H. congruence.
  - intros H. destruct (find _ es) as [e|] eqn:F; auto. apply find_some in F as [I E].
    apply str_eqb_eq in E. exfalso; apply H; eauto.
Qed.

Lemma lookup_some es id e : lookup es id = Some e -> In e es /\ e_id e = id.
Proof. unfold lookup; intros F. apply find_some in F as [I E]. apply str_eqb_eq in E; auto. Qed.

Lemma lookup_in es e : NoDup (map e_id es) -> In e es -> lookup es (e_id e) = Some e.
Proof.
  unfold lookup. induction es as [|x es IH]; cbn; [contradiction|].
  intros N [->|H]; [rewrite str_eqb_refl; auto|].
  inversion N as [|? ? N1 N2]; subst.
  destruct (str_eqb_spec (e_id x) (e_id e)) as [E|E]; auto.
  exfalso; apply N1. rewrite E. apply in_map; auto.
Qed.

Lemma nodup_snoc {A} (l : list A) x : NoDup l -> ~ In x l -> NoDup (l ++ [x]).
Proof.
  intros N H. eapply Permutation_NoDup; [apply Permutation_cons_append|]. constructor; auto.
Qed.

Lemma types_ok_snoc ts es e : types_ok ts es ->
  types_ok (assoc_set (e_type e)
              (match assoc (e_type e) ts with Some l => l | None => [] end ++ [length es]) ts)
           (es ++ [e]).
Proof.
  intros [N H]. split.
  - rewrite assoc_set_keys. destruct (str_in _ _) eqn:E; [rewrite app_nil_r; auto|].
    apply nodup_snoc; auto. apply str_in_not; auto.
  - intros t. rewrite positions_app. cbn. destruct (str_eqb_spec (e_type e) t) as [->|D].
    + rewrite assoc_set_same. rewrite H. destruct (positions t 0 es); auto.
    + rewrite assoc_set_other by congruence. rewrite app_nil_r. apply H.
Qed.

Lemma add_entity_inv g es e : Inv g es ->
  match lookup es (e_id e) with
  | Some _ => add_entity g e = (g, Err (EntityAlreadyExists (e_id e)))
  | None => snd (add_entity g e) = Ok tt /\ Inv (fst (add_entity g e)) (es ++ [e])
  end.
Proof.
  intros I. pose proof (assoc_map_lookup g es (e_id e) I) as H. unfold add_entity.
  destruct (assoc (e_id e) (g_map g)) as [m|] eqn:A.
  - destruct H as (_ & _ & H). destruct (lookup es (e_id e)); [auto|congruence].
  - rewrite H. split; [auto|]. cbn [fst]. destruct I as [I1 I2 I3 I4 I5]. constructor; cbn.
    + congruence.
    + rewrite assoc_set_fresh by auto. rewrite I2, I1, mk_map_app. cbn. auto.
    + rewrite map_app. cbn. apply nodup_snoc; auto.
      apply lookup_none in H. intros X. apply H. apply in_map_iff in X as (x & X1 & X2). exists x; auto.
    + rewrite I1. apply types_ok_snoc; auto.
    + intros a b r X. cbn in X |- *. apply I5 in X. rewrite app_length. cbn. lia.
Qed.

Lemma add_entities_inv g es new : Inv g es ->
  snd (add_entities g new) = snd (accept_all es new) /\
  Inv (fst (add_entities g new)) (fst (accept_all es new)).
Proof.
  revert g es; induction new as [|e new IH]; intros g es I; cbn; auto.
  pose proof (add_entity_inv g es e I) as H.
  destruct (lookup es (e_id e)).
  - rewrite H. cbn. auto.
  - destruct H as [H1 H2]. destruct (add_entity g e) as [g' r]. cbn in *. subst r. apply IH; auto.
Qed.

Lemma collect_in m from f v a b r :
  In (a, b, r) (collect_relationships m from f v) <->
  a = from /\ exists x, holds v x /\ assoc (ref_target x) m = Some b /\ r = rel_of f x.
Proof.
  revert v. apply (value_ind' (fun v => In (a, b, r) (collect_relationships m from f v) <->
    a = from /\ exists x, holds v x /\ assoc (ref_target x) m = Some b /\ r = rel_of f x));
  try (intros; cbn; split; [contradiction|]; intros (_ & x & H & _); inversion H; fail).
  - intros x. split.
    + intros H. destruct x as [t|t tf]; cbn in H; destruct (assoc t m) as [to|] eqn:E; cbn in H;
        try contradiction; destruct H as [[= <- <- <-]|[]]; split; auto;
        eexists; (split; [apply holds_here|]); split; auto.
    + intros (-> & y & H & E & ->). inversion H; subst y. clear H.
      destruct x as [t|t tf]; cbn in *; rewrite E; left; auto.
  - intros vs IH. cbn [collect_relationships]. rewrite in_flat_map. rewrite Forall_forall in IH. split.
    + intros (v & I & H). apply IH in H; auto. destruct H as (-> & x & H1 & H2 & H3).
      split; auto. exists x. split; auto. eapply holds_item; eauto.
    + intros (-> & x & H1 & H2 & H3). inversion H1; subst. exists v. split; auto.
      apply IH; auto. split; auto. exists x; auto.
Qed.

Lemma entity_edges_in m from e a b r :
  In (a, b, r) (entity_edges m from e) <->
  a = from /\ exists f v x, In (f, v) (e_fields e) /\ holds v x /\
                            assoc (ref_target x) m = Some b /\ r = rel_of f x.
Proof.
  unfold entity_edges. rewrite in_flat_map. split.
  - intros ([f v] & I & H). apply collect_in in H as (-> & x & H1 & H2 & H3). cbn in *.
    split; auto. exists f, v, x. auto.
  - intros (-> & f & v & x & I & H1 & H2 & H3). exists (f, v). split; auto.
    apply collect_in. split; auto. exists x; auto.
Qed.

Lemma edges_from_in m n es a b r :
  In (a, b, r) (edges_from m n es) <->
  exists e f v x, n <= a /\ nth_error es (a - n) = Some e /\ In (f, v) (e_fields e) /\ holds v x /\
                  assoc (ref_target x) m = Some b /\ r = rel_of f x.
Proof.
  revert n; induction es as [|e es IH]; intros n; cbn [edges_from].
  - split; [contradiction|]. intros (e & f & v & x & _ & H & _). destruct (a - n); discriminate.
  - rewrite in_app_iff, entity_edges_in, IH. split.
    + intros [(-> & f & v & x & H)|(e' & f & v & x & L1 & H1 & H)].
      * exists e, f, v, x. rewrite Nat.sub_diag. cbn. intuition lia.
      * exists e', f, v, x. replace (a - n) with (S (a - S n)) by lia. cbn. intuition lia.
    + intros (e' & f & v & x & L1 & H1 & H). destruct (Nat.eq_dec a n) as [->|D].
      * left. rewrite Nat.sub_diag in H1. injection H1 as <-. split; auto. exists f, v, x; auto.
      * right. exists e', f, v, x. replace (a - n) with (S (a - S n)) in H1 by lia.
        cbn in H1. intuition lia.
Qed.

Lemma build_inv g es : Inv g es -> Inv (build g) es.
Proof.
  intros I. destruct I as [I1 I2 I3 I4 I5]. constructor; cbn; auto.
  intros a b r H. cbn in *. apply edges_from_in in H as (e & f & v & x & H1 & H2 & H3 & H4 & H5 & H6).
  rewrite Nat.sub_0_r in H2. assert (H2' : nth_error (g_nodes g) a <> None) by congruence.
  apply nth_error_Some in H2'. split; auto.
  rewrite I2 in H5. pose proof (mk_map_lookup 0 es (ref_target x)) as M. rewrite H5 in M.
  rewrite I1. lia.
Qed.

Lemma step_inv g es o : Inv g es ->
  snd (step g o) = snd (spec_step es o) /\ Inv (fst (step g o)) (fst (spec_step es o)).
Proof.
  intros I. destruct o as [e|new| |]; cbn [step spec_step].
  - pose proof (add_entity_inv g es e I) as H. cbn. destruct (lookup es (e_id e)).
    + rewrite H. auto.
    + destruct H; auto.
  - apply add_entities_inv; auto.
  - split; auto. apply build_inv; auto.
  - split; auto. apply inv_new.
Qed.

Lemma run_inv_from ops g es : Inv g es ->
  Inv (fold_left (fun g o => fst (step g o)) ops g) (fold_left (fun es o => fst (spec_step es o)) ops es).
Proof.
  revert g es; induction ops as [|o ops IH]; intros g es I; cbn; auto.
  apply IH. apply step_inv; auto.
Qed.

Lemma run_inv ops : Inv (run ops) (spec_run ops).
Proof. apply run_inv_from, inv_new. Qed.

Lemma get_entity_lookup g es id : Inv g es -> get_entity g id = lookup es id.
Proof.
  intros I. unfold get_entity. pose proof (assoc_map_lookup g es id I) as H.
  destruct (assoc id (g_map g)) as [m|]; [|congruence].
  rewrite (inv_nodes _ _ I). tauto.
Qed.

(** Listing by type. *)
Lemma filter_opt_positions t es : forall n pre,
  length pre = n ->
  filter_opt (nth_error (pre ++ es)) (positions t n es) = filter (fun e => str_eqb (e_type e) t) es.
Proof.
  induction es as [|e es IH]; intros n pre E; cbn; auto.
  assert (X : filter_opt (nth_error (pre ++ e :: es)) (positions t (S n) es)
              = filter (fun e => str_eqb (e_type e) t) es).
  { rewrite <- (IH (S n) (pre ++ [e])); [|rewrite app_length; cbn; lia].
    rewrite <- app_assoc. auto. }
  destruct (str_eqb (e_type e) t); auto.
  cbn. rewrite nth_error_app2 by lia. replace (n - length pre) with 0 by lia. cbn. rewrite X. auto.
Qed.

Lemma list_by_type_filter g es t : Inv g es ->
  list_by_type g t = filter (fun e => str_eqb (e_type e) t) es.
Proof.
  intros I. unfold list_by_type. destruct (inv_types _ _ I) as [_ H]. rewrite H.
  pose proof (filter_opt_positions t es 0 [] eq_refl) as F. cbn [app] in F.
  rewrite (inv_nodes _ _ I). rewrite <- F. destruct (positions t 0 es); auto.
Qed.

Lemma positions_nil t n es : positions t n es = [] <-> ~ exists e, In e es /\ e_type e = t.
Proof.
  revert n; induction es as [|e es IH]; intros n; cbn.
  - split; auto. intros _ (e & [] & _).
  - destruct (str_eqb_spec (e_type e) t) as [E|D]; split; try congruence.
    + intros H. exfalso; apply H; exists e; auto.
    + intros H (x & [->|I] & E); [congruence|]. apply IH in H. apply H; exists x; auto.
    + intros H. apply IH. intros (x & I & E). apply H; exists x; auto.
Qed.

Lemma type_keys_spec g es : Inv g es ->
  NoDup (type_keys g) /\ forall t, In t (type_keys g) <-> exists e, In e es /\ e_type e = t.
Proof.
  intros I. destruct (inv_types _ _ I) as [N H]. split; auto. intros t. unfold type_keys.
  specialize (H t). destruct (assoc t (g_types g)) as [l|] eqn:A.
  - destruct (positions t 0 es) as [|p l'] eqn:P; [discriminate|]. split; intros X.
    + destruct (in_dec str_eq_dec t (map e_type es)) as [J|J].
      * apply in_map_iff in J as (e & E & J). eauto.
      * exfalso. assert (Q : positions t 0 es = []); [|congruence]. apply positions_nil.
        intros (e & J1 & J2). apply J. subst. apply in_map; auto.
    + destruct (in_dec str_eq_dec t (map fst (g_types g))) as [J|J]; auto.
      apply assoc_none in J. congruence.
  - apply assoc_none in A. split; [contradiction|]. intros X.
    destruct (positions t 0 es) eqn:P; [|discriminate]. apply positions_nil in P. contradiction.
Qed.

(** Filtering a list by every one of a duplicate-free list of keys that covers
    it yields a permutation of the list. *)
Lemma flat_map_filter_perm {A} (key : A -> str) (ts : list str) (l : list A) :
  NoDup ts -> (forall a, In a l -> In (key a) ts) ->
  Permutation (flat_map (fun t => filter (fun a => str_eqb (key a) t) l) ts) l.
Proof.
  intros N. induction l as [|a l IH]; intros C.
  - assert (E : flat_map (fun t => filter (fun a => str_eqb (key a) t) []) ts = @nil A).
    { clear. induction ts; cbn; auto. }
    rewrite E. auto.
  - assert (Ha : In (key a) ts) by (apply C; left; auto).
    assert (P : Permutation (flat_map (fun t => filter (fun a => str_eqb (key a) t) (a :: l)) ts)
                            (a :: flat_map (fun t => filter (fun a => str_eqb (key a) t) l) ts)).
    { clear IH C. revert Ha. induction N as [|t ts Nt _ IHN]; cbn; [contradiction|].
      intros H. destruct (str_eqb_spec (key a) t) as [E|D].
      - cbn. constructor. apply Permutation_app_head.
        assert (F : forall ts, ~ In (key a) ts ->
          flat_map (fun t => filter (fun a => str_eqb (key a) t) (a :: l)) ts =
          flat_map (fun t => filter (fun a => str_eqb (key a) t) l) ts).
        { clear. induction ts as [|t ts IH]; cbn; auto. intros H.
          destruct (str_eqb_spec (key a) t); [exfalso; auto|]. rewrite <- IH; auto. }
        rewrite F; auto. congruence.
      - destruct H as [H|H]; [congruence|]. rewrite (IHN H).
        symmetry. apply Permutation_middle. }
    rewrite P. constructor. apply IH. intros b Hb. apply C. right; auto.
Qed.

(** Neighbours. *)
Lemma filter_opt_In {A B} (f : A -> option B) l b :
  In b (filter_opt f l) <-> exists a, In a l /\ f a = Some b.
Proof.
  induction l as [|a l IH]; cbn; [split; [contradiction|intros (a & [] & _)]|].
  destruct (f a) as [b'|] eqn:E; cbn; rewrite IH; split.
  - intros [<-|(x & I & H)]; eauto.
  - intros (x & [<-|I] & H); [left; congruence|right; eauto].
  - intros (x & I & H); eauto.
  - intros (x & [<-|I] & H); [congruence|eauto].
Qed.

Lemma nth_error_id es i j a b : NoDup (map e_id es) ->
  nth_error es i = Some a -> nth_error es j = Some b -> e_id a = e_id b -> i = j.
Proof.
  intros N Ha Hb E. rewrite NoDup_nth_error in N. apply N.
  - rewrite map_length. apply nth_error_Some. congruence.
  - rewrite !nth_error_map, Ha, Hb. cbn. congruence.
Qed.

Definition built (g : graph) (es : list entity) : Prop :=
  Inv g es /\ g_edges g = edges_from (mk_map 0 es) 0 es.

Lemma build_built g es : Inv g es -> built (build g) es.
Proof.
  intros I. split; [apply build_inv; auto|]. cbn. rewrite (inv_nodes _ _ I), (inv_map _ _ I). auto.
Qed.

Lemma index_of_entity es e n : NoDup (map e_id es) -> nth_error es n = Some e ->
  assoc (e_id e) (mk_map 0 es) = Some n.
Proof.
  intros N H. pose proof (mk_map_lookup 0 es (e_id e)) as M.
  rewrite (lookup_in es e) in M; eauto using nth_error_In.
  destruct (assoc (e_id e) (mk_map 0 es)) as [m|]; [|discriminate].
  rewrite Nat.sub_0_r in M. destruct M as (_ & M & _). f_equal. eapply nth_error_id; eauto.
Qed.

Lemma edge_exists g es a b i j : built g es ->
  nth_error es i = Some a -> nth_error es j = Some b ->
  ((exists r, In (i, j, r) (g_edges g)) <-> mentions a b).
Proof.
  intros [I E] Ha Hb. rewrite E. split.
  - intros (r & H). apply edges_from_in in H as (e & f & v & x & H1 & H2 & H3 & H4 & H5 & H6).
    rewrite Nat.sub_0_r in H2. assert (e = a) by congruence. subst e.
    exists f, v, x. repeat split; auto.
    pose proof (mk_map_lookup 0 es (ref_target x)) as M. rewrite H5, Nat.sub_0_r in M.
    destruct M as (_ & M & _). rewrite Hb in M. symmetry in M. apply lookup_some in M as [_ M]. auto.
  - intros (f & v & x & H1 & H2 & H3). exists (rel_of f x). apply edges_from_in.
    exists a, f, v, x. rewrite Nat.sub_0_r. repeat split; auto; try lia.
    rewrite H3. apply index_of_entity; auto. apply (inv_nodup _ _ I).
Qed.

Lemma edge_targets_in g es i a b : built g es -> nth_error es i = Some a ->
  (In b (edge_targets g i) <-> In b es /\ mentions a b).
Proof.
  intros B Ha. unfold edge_targets. rewrite filter_opt_In. split.
  - intros ([[x y] r] & H & E). destruct (Nat.eqb_spec x i) as [->|]; [|discriminate].
    destruct B as [I BE]. rewrite (inv_nodes _ _ I) in E. split; [eapply nth_error_In; eauto|].
    eapply edge_exists; eauto. split; eauto.
  - intros [H M]. apply In_nth_error in H as (j & Hj).
    eapply edge_exists in M as (r & M); eauto. exists (i, j, r). split; auto.
    rewrite Nat.eqb_refl. destruct B as [I _]. rewrite (inv_nodes _ _ I). auto.
Qed.

Lemma edge_sources_in g es i a b : built g es -> nth_error es i = Some a ->
  (In b (edge_sources g i) <-> In b es /\ mentions b a).
Proof.
  intros B Ha. unfold edge_sources. rewrite filter_opt_In. split.
  - intros ([[x y] r] & H & E). destruct (Nat.eqb_spec y i) as [->|]; [|discriminate].
    destruct B as [I BE]. rewrite (inv_nodes _ _ I) in E. split; [eapply nth_error_In; eauto|].
    eapply edge_exists; eauto. split; eauto.
  - intros [H M]. apply In_nth_error in H as (j & Hj).
    eapply edge_exists in M as (r & M); eauto. exists (j, i, r). split; auto.
    rewrite Nat.eqb_refl. destruct B as [I _]. rewrite (inv_nodes _ _ I). auto.
Qed.

(** Sorting. *)
Lemma insert_by_perm {A} cmp (x : A) l : Permutation (insert_by cmp x l) (x :: l).
Proof.
  induction l as [|y l IH]; cbn; auto. destruct (cmp x y); auto.
  rewrite IH. constructor.
Qed.
Lemma sort_by_perm {A} cmp (l : list A) : Permutation (sort_by cmp l) l.
Proof. induction l as [|x l IH]; cbn; auto. rewrite insert_by_perm, IH. auto. Qed.

Definition id_le (a b : entity) : Prop := by_id a b <> Gt.

Lemma by_id_total a b : by_id a b = Gt -> id_le b a.
Proof. unfold id_le, by_id. intros H. rewrite str_cmp_antisym, H. discriminate. Qed.

Lemma str_le_trans a b c : str_cmp a b <> Gt -> str_cmp b c <> Gt -> str_cmp a c <> Gt.
Proof.
  intros H1 H2. destruct (str_cmp a b) eqn:E1; [| |congruence].
  - apply str_cmp_eq in E1. subst. auto.
  - destruct (str_cmp b c) eqn:E2; [| |congruence].
    + apply str_cmp_eq in E2. subst. congruence.
    + rewrite (str_cmp_trans_lt a b c); congruence.
Qed.

Lemma insert_sorted x l : StronglySorted id_le l -> StronglySorted id_le (insert_by by_id x l).
Proof.
  induction l as [|y l IH]; intros H; cbn; [repeat constructor|].
  inversion H as [|? ? H1 H2]; subst.
  destruct (by_id x y) eqn:E.
  3: { constructor; auto. apply Forall_forall. intros z Hz.
       apply (Permutation_in _ (insert_by_perm by_id x l)) in Hz as [<-|Hz].
       - apply by_id_total; auto.
       - rewrite Forall_forall in H2; auto. }
  all: constructor; [constructor; auto|]; constructor; [unfold id_le; congruence|];
    eapply Forall_impl; [|exact H2]; intros z Hz; unfold id_le, by_id in *;
    eapply str_le_trans; eauto; congruence.
Qed.

Lemma sort_by_id_sorted l : StronglySorted id_le (sort_by by_id l).
Proof. induction l; cbn; [constructor|apply insert_sorted; auto]. Qed.

Lemma dedup_after_sub {A} (key : A -> str) prev l x : In x (dedup_after key prev l) -> In x l.
Proof.
  revert prev; induction l as [|y l IH]; intros prev; cbn; auto.
  destruct (str_eqb (key y) (key prev)); cbn; [eauto|]. intros [|]; eauto.
Qed.

Lemma dedup_after_sorted prev l :
  StronglySorted id_le (prev :: l) -> StronglySorted id_lt (prev :: dedup_after e_id prev l).
Proof.
  revert prev; induction l as [|y l IH]; intros prev H; cbn; [repeat constructor|].
  inversion H as [|? ? H1 H2]; subst. inversion H1 as [|? ? H3 H4]; subst. inversion H2 as [|? ? H5 H6]; subst.
  destruct (str_eqb_spec (e_id y) (e_id prev)) as [E|D].
  - apply IH. constructor; auto.
  - assert (LT : id_lt prev y).
    { unfold id_le, by_id, id_lt in *. destruct (str_cmp (e_id prev) (e_id y)) eqn:C; auto.
      - apply str_cmp_eq in C. congruence.
      - congruence. }
    specialize (IH y H1). constructor; auto. constructor; auto.
    inversion IH as [|? ? _ F]; subst. eapply Forall_impl; [|exact F].
    intros z Hz. unfold id_lt in *. eapply str_cmp_trans_lt; eauto.
Qed.

Lemma dedup_sorted l : StronglySorted id_le l -> StronglySorted id_lt (dedup_by_key e_id l).
Proof. destruct l as [|x l]; cbn; [constructor|]. apply dedup_after_sorted. Qed.

Lemma dedup_after_In es prev l x : NoDup (map e_id es) -> incl (prev :: l) es ->
  (In x (prev :: dedup_after e_id prev l) <-> In x (prev :: l)).
Proof.
  intros N. revert prev; induction l as [|y l IH]; intros prev I; cbn; [tauto|].
  destruct (str_eqb_spec (e_id y) (e_id prev)) as [E|D].
  - assert (Iy : In y es) by (apply I; right; left; auto).
    assert (Ip : In prev es) by (apply I; left; auto).
    assert (y = prev).
    { pose proof (lookup_in es y N Iy). pose proof (lookup_in es prev N Ip). congruence. }
    subst y. specialize (IH prev). cbn in IH. rewrite IH; [tauto|].
    intros z Hz; apply I. destruct Hz; [left|right;right]; auto.
  - specialize (IH y). cbn in IH. rewrite IH; [tauto|]. intros z Hz; apply I; right; auto.
Qed.

Lemma dedup_In es l x : NoDup (map e_id es) -> incl l es -> (In x (dedup_by_key e_id l) <-> In x l).
Proof.
  intros N I. destruct l as [|y l]; [tauto|]. eapply dedup_after_In; eauto.
Qed.

Lemma get_related_spec g es id d : built g es ->
  match get_related g id d with
  | None => lookup es id = None
  | Some l => exists a, lookup es id = Some a /\ StronglySorted id_lt l /\
                        forall b, In b l <-> In b es /\ neighbour d a b
  end.
Proof.
  intros B. pose proof B as [I _]. unfold get_related.
  pose proof (assoc_map_lookup g es id I) as H.
  destruct (assoc id (g_map g)) as [n|] eqn:A; auto.
  destruct H as (H1 & H2 & H3). destruct (lookup es id) as [a|] eqn:Lk; [|congruence].
  exists a. split; auto.
  assert (T : forall b, In b (edge_targets g n) <-> In b es /\ mentions a b)
    by (intros b; eapply edge_targets_in; eauto).
  assert (S : forall b, In b (edge_sources g n) <-> In b es /\ mentions b a)
    by (intros b; eapply edge_sources_in; eauto).
  split; [apply dedup_sorted, sort_by_id_sorted|].
  assert (X : forall l, (forall b, In b l <-> In b es /\ neighbour d a b) ->
     forall b, In b (dedup_by_key e_id (sort_by by_id l)) <-> In b es /\ neighbour d a b).
  { intros l Hl b. rewrite dedup_In with (es := es).
    - rewrite <- Hl. split; apply Permutation_in; [|symmetry]; apply sort_by_perm.
    - apply (inv_nodup _ _ I).
    - intros z Hz. apply (Permutation_in _ (sort_by_perm by_id l)) in Hz. apply Hl in Hz. tauto. }
  apply X. intros b. destruct d as [[|]|]; cbn.
  - rewrite <- in_rev. apply T.
  - rewrite <- in_rev. apply S.
  - rewrite in_app_iff, <- !in_rev, T, S. tauto.
Qed.

(** Field references. *)
Lemma follows_det es id f n v n' v' : follows es id f n v -> follows es id f n' v' -> n = n' /\ v = v'.
Proof.
  intros H; revert n' v'.
  induction H as [id f e v H1 H2 H3|id f e id2 f2 n v H1 H2 H3 IH]; intros n' v' H';
  inversion H' as [? ? e0 ? A1 A2 A3|? ? e0 id3 f3 n3 ? A1 A2 A3]; subst;
  rewrite H1 in A1; injection A1 as ->; rewrite H2 in A2; injection A2; intros; subst.
  - auto.
  - exfalso. apply H3. unfold is_field_ref; eauto.
  - exfalso. apply A3. unfold is_field_ref; eauto.
  - apply IH in A3 as [-> ->]. auto.
Qed.

Lemma has_field_edge_built g es id e f tid tf src dst :
  built g es -> lookup es id = Some e -> get_field e f = Some (VRef (RField tid tf)) ->
  assoc id (g_map g) = Some src -> assoc tid (g_map g) = Some dst ->
  has_field_edge g src dst f tf = true.
Proof.
  intros [I E] Hl Hf Hs Hd. unfold has_field_edge. apply existsb_exists.
  exists (src, dst, FieldReference f tf). split.
  - rewrite E. apply edges_from_in. exists e.
    unfold get_field in Hf. destruct (find (fun p => str_eqb (fst p) f) (e_fields e)) as [[f' v']|] eqn:F; [|discriminate].
    injection Hf as ->. apply find_some in F as [F1 F2]. cbn in F2. apply str_eqb_eq in F2. subst f'.
    exists f, (VRef (RField tid tf)), (RField tid tf). rewrite Nat.sub_0_r.
    pose proof (assoc_map_lookup g es id I) as M. rewrite Hs in M. destruct M as (_ & M & _).
    repeat split; auto; try lia.
    + congruence.
    + constructor.
    + cbn. rewrite <- (inv_map _ _ I). auto.
  - rewrite !Nat.eqb_refl, !str_eqb_refl. auto.
Qed.

Lemma key_eqb_eq a b : key_eqb a b = true <-> a = b.
Proof.
  destruct a as [x y], b as [u v]. unfold key_eqb. cbn. rewrite andb_true_iff, !str_eqb_eq.
  split; [intros [-> ->]|intros [= -> ->]]; auto.
Qed.

Definition visited_ahead es (visited : list (entity_id * field_id)) n :=
  forall id f m v, In (id, f) visited -> follows es id f m v -> n < m.

Lemma search_ok g es : built g es -> forall depth id f n v visited,
  follows es id f n v -> n < depth -> visited_ahead es visited n ->
  search_field_reference g id f depth visited = Ok v.
Proof.
  intros B. pose proof B as [I _]. induction depth as [|depth IH]; intros id f n v visited F L V; [lia|].
  cbn. assert (NV : existsb (key_eqb (id, f)) visited = false).
  { destruct (existsb (key_eqb (id, f)) visited) eqn:X; auto. apply existsb_exists in X as (k & K1 & K2).
    apply key_eqb_eq in K2. subst k. exfalso. specialize (V id f n v K1 F). lia. }
  rewrite NV. inversion F as [? ? e ? H1 H2 H3|? ? e id' f' n' ? H1 H2 H3]; subst.
  - rewrite (get_entity_lookup g es id I), H1, H2.
    destruct v as [| | | | |[]| | | |]; auto. exfalso; apply H3; unfold is_field_ref; eauto.
  - rewrite (get_entity_lookup g es id I), H1, H2.
    pose proof (assoc_map_lookup g es id I) as M1. destruct (assoc id (g_map g)) as [src|] eqn:A1; [|congruence].
    pose proof (assoc_map_lookup g es id' I) as M2.
    destruct (assoc id' (g_map g)) as [dst|] eqn:A2; [|inversion H3; congruence].
    erewrite has_field_edge_built; eauto. eapply IH; eauto; [lia|].
    intros id2 f2 m v2 [[= <- <-]|Hin] F2.
    + destruct (follows_det _ _ _ _ _ _ _ F F2) as [<- _]. lia.
    + specialize (V _ _ _ _ Hin F2). lia.
Qed.

Lemma search_sound g es : Inv g es -> forall depth id f v visited,
  search_field_reference g id f depth visited = Ok v ->
  exists n, n < depth /\ follows es id f n v.
Proof.
  intros I. induction depth as [|depth IH]; intros id f v visited; cbn; [discriminate|].
  destruct (existsb (key_eqb (id, f)) visited); [discriminate|].
  rewrite (get_entity_lookup g es id I).
  destruct (lookup es id) as [e|] eqn:H1; [|discriminate].
  destruct (get_field e f) as [w|] eqn:H2; [|discriminate].
  assert (D : is_field_ref w \/ ~ is_field_ref w).
  { unfold is_field_ref. destruct w as [| | | | |[]| | | |]; try (right; intros (? & ? & ?); discriminate).
    left; eauto. }
  destruct D as [(tid & tf & ->)|D].
  - destruct (assoc id (g_map g)) as [src|]; [|discriminate].
    destruct (assoc tid (g_map g)) as [dst|]; [|discriminate].
    destruct (has_field_edge g src dst f tf); [|discriminate].
    intros H. apply IH in H as (n & L & F). exists (S n). split; [lia|]. eapply follows_ref; eauto.
  - intros H. assert (w = v).
    { destruct w as [| | | | |[]| | | |]; try (injection H; auto). exfalso; apply D; unfold is_field_ref; eauto. }
    subst w. exists 0. split; [lia|]. eapply follows_value; eauto.
Qed.

(** Consequences used by the property theorems. *)
Lemma accept_all_adds es es0 id :
  lookup (fold_left (fun es o => fst (spec_step es o)) (map OAdd es) es0) id = lookup (es0 ++ es) id.
Proof.
  revert es0. induction es as [|e es IH]; intros es0; cbn [map fold_left]; [rewrite app_nil_r; auto|].
  rewrite IH. cbn. destruct (lookup es0 (e_id e)) as [x|] eqn:E; cbn [fst].
  - unfold lookup. clear IH. unfold lookup in E.
    revert E. induction es0 as [|y es0 IH]; cbn; [discriminate|].
    destruct (str_eqb_spec (e_id y) (e_id e)) as [E1|E1]; intros E.
    + destruct (str_eqb_spec (e_id y) id) as [E2|E2]; auto.
      clear IH E. induction es0 as [|z es0 IH]; cbn.
      * destruct (str_eqb_spec (e_id e) id); [congruence|auto].
      * destruct (str_eqb (e_id z) id); auto.
    + destruct (str_eqb (e_id y) id); auto.
  - rewrite <- app_assoc. auto.
Qed.

Lemma hops_follows es p q n v : hops es p q -> follows es (fst p) (snd p) n v ->
  exists m, m < n /\ follows es (fst q) (snd q) m v.
Proof.
  intros H. revert n v. induction H as [p q (e & H1 & H2)|p q r (e & H1 & H2) _ IH]; intros n v F.
  - inversion F as [? ? e0 ? A1 A2 A3|? ? e0 id3 f3 n3 ? A1 A2 A3]; subst;
    rewrite H1 in A1; injection A1 as ->; rewrite H2 in A2; injection A2; intros; subst.
    + exfalso. apply A3. unfold is_field_ref; eauto.
    + exists n3. split; auto.
  - inversion F as [? ? e0 ? A1 A2 A3|? ? e0 id3 f3 n3 ? A1 A2 A3]; subst;
    rewrite H1 in A1; injection A1 as ->; rewrite H2 in A2; injection A2; intros; subst.
    + exfalso. apply A3. unfold is_field_ref; eauto.
    + apply IH in A3 as (m & M1 & M2). exists m. split; auto.
Qed.

Lemma linked_spec g es a b r : built g es ->
  linked g a b r <-> In a es /\ In b es /\
    exists f v x, In (f, v) (e_fields a) /\ holds v x /\ ref_target x = e_id b /\ r = rel_of f x.
Proof.
  intros [I E]. unfold linked. rewrite E, (inv_nodes _ _ I). split.
  - intros (i & j & H & Hi & Hj). split; [eapply nth_error_In; eauto|]. split; [eapply nth_error_In; eauto|].
    apply edges_from_in in H as (e & f & v & x & H1 & H2 & H3 & H4 & H5 & H6).
    rewrite Nat.sub_0_r in H2. assert (e = a) by congruence. subst e.
    exists f, v, x. repeat split; auto.
    pose proof (mk_map_lookup 0 es (ref_target x)) as M. rewrite H5, Nat.sub_0_r in M.
    destruct M as (_ & M & _). rewrite Hj in M. symmetry in M. apply lookup_some in M as [_ M]. auto.
  - intros (Ha & Hb & f & v & x & H1 & H2 & H3 & H4).
    apply In_nth_error in Ha as (i & Ha). apply In_nth_error in Hb as (j & Hb).
    exists i, j. split; auto. apply edges_from_in. exists a, f, v, x. rewrite Nat.sub_0_r.
    repeat split; auto; try lia. rewrite H3. apply index_of_entity; auto. apply (inv_nodup _ _ I).
Qed.

Lemma run_app ops o : run (ops ++ [o]) = fst (step (run ops) o).
Proof. unfold run. rewrite fold_left_app. auto. Qed.

Lemma built_run ops : built (build (run ops)) (spec_run ops).
Proof. apply build_built, run_inv. Qed.

Lemma resolve_field_iff ops id f v :
  resolve_field_reference (build (run ops)) (VRef (RField id f)) = Ok v
  <-> exists n, n < 10 /\ follows (spec_run ops) id f n v.
Proof.
  cbn [resolve_field_reference]. split.
  - apply search_sound. apply built_run.
  - intros (n & Ln & F). eapply search_ok; eauto; [apply built_run|]. intros ? ? ? ? [].
Qed.

Lemma follows_not_ref es id f n v : follows es id f n v -> ~ is_field_ref v.
Proof. induction 1; auto. Qed.

Lemma resolve_cycle_err ops id f :
  (exists q, hops (spec_run ops) (id, f) q /\ hops (spec_run ops) q q) \/ hops (spec_run ops) (id, f) (id, f) ->
  exists x, resolve_field_reference (build (run ops)) (VRef (RField id f)) = Err x.
Proof.
  intros H. destruct (resolve_field_reference (build (run ops)) (VRef (RField id f))) as [v|x] eqn:E; eauto.
  apply resolve_field_iff in E as (n & _ & F). exfalso.
  assert (C : forall q n v, hops (spec_run ops) q q -> follows (spec_run ops) (fst q) (snd q) n v -> False).
  { intros q m w Hq Fq. destruct (hops_follows _ _ _ _ _ Hq Fq) as (k & K1 & K2).
    destruct (follows_det _ _ _ _ _ _ _ Fq K2). lia. }
  destruct H as [(q & H1 & H2)|H].
  - destruct (hops_follows _ _ _ _ _ H1 F) as (m & _ & F2). eauto.
  - apply (C (id, f) n v); auto.
Qed.

Lemma related_mem g es id d l b : built g es -> get_related g id d = Some l ->
  (In b l <-> exists a, lookup es id = Some a /\ In b es /\ neighbour d a b).
Proof.
  intros B H. pose proof (get_related_spec g es id d B) as S. rewrite H in S.
  destruct S as (a & S1 & _ & S2). rewrite S2. split.
  - intros []. exists a; auto.
  - intros (a' & E & X). congruence.
Qed.

Lemma related_some g es a d : built g es -> In a es -> exists l, get_related g (e_id a) d = Some l.
Proof.
  intros B Ha. pose proof (get_related_spec g es (e_id a) d B) as S.
  destruct (get_related g (e_id a) d); eauto.
  apply lookup_none in S. exfalso; apply S; exists a; auto.
Qed.

Lemma spec_run_nodup ops : NoDup (map e_id (spec_run ops)).
Proof. apply (inv_nodup _ _ (run_inv ops)). Qed.

Lemma related_dual g es a b : built g es -> In a es -> In b es ->
  exists la lb, get_related g (e_id a) (Some Outgoing) = Some la /\
                get_related g (e_id b) (Some Incoming) = Some lb /\ (In b la <-> In a lb).
Proof.
  intros B Ha Hb. destruct (related_some g es a (Some Outgoing) B Ha) as (la & La).
  destruct (related_some g es b (Some Incoming) B Hb) as (lb & Lb).
  exists la, lb. split; auto. split; auto.
  pose proof (inv_nodup _ _ (proj1 B)) as N.
  rewrite (related_mem _ _ _ _ _ _ B La), (related_mem _ _ _ _ _ _ B Lb).
  rewrite (lookup_in es a N Ha), (lookup_in es b N Hb). cbn.
  split; intros (x & [= <-] & _ & M); eauto.
Qed.

(** ** How a chain of field references fails *)
Lemma not_visited (p : entity_id * field_id) visited : ~ In p visited -> existsb (key_eqb p) visited = false.
Proof.
  intros N. destruct (existsb (key_eqb p) visited) eqn:X; auto. apply existsb_exists in X as (k & K1 & K2).
  apply key_eqb_eq in K2. subst k. contradiction.
Qed.
Lemma visited_yes (p : entity_id * field_id) visited : In p visited -> existsb (key_eqb p) visited = true.
Proof. intros N. apply existsb_exists. exists p. split; auto. apply key_eqb_eq. auto. Qed.

Lemma search_hop g es p q d visited : built g es -> hop es p q -> ~ In p visited ->
  search_field_reference g (fst p) (snd p) (S d) visited =
  match lookup es (fst q) with
  | Some _ => search_field_reference g (fst q) (snd q) d (p :: visited)
  | None => Err (EntityNotFound (fst q))
  end.
Proof.
  intros B (e & H1 & H2) N. pose proof B as [I _]. cbn [search_field_reference].
  rewrite <- (surjective_pairing p), (not_visited p visited N), (get_entity_lookup g es _ I), H1, H2.
  pose proof (assoc_map_lookup g es (fst p) I) as M1. destruct (assoc (fst p) (g_map g)) as [src|] eqn:A1; [|congruence].
  pose proof (assoc_map_lookup g es (fst q) I) as M2.
  destruct (assoc (fst q) (g_map g)) as [dst|] eqn:A2.
  - erewrite has_field_edge_built; eauto. destruct M2 as (_ & _ & M2). destruct (lookup es (fst q)); congruence.
  - rewrite M2. auto.
Qed.
Lemma search_trail g es p l q : built g es -> trail es p l q -> forall d visited,
  NoDup l -> (forall k, In k l -> ~ In k visited) -> lookup es (fst q) <> None ->
  search_field_reference g (fst p) (snd p) (length l + d) visited =
  search_field_reference g (fst q) (snd q) d (rev l ++ visited).
Proof.
  intros B T. induction T as [p|p q l r H T IH]; intros d visited N D K; [reflexivity|].
  apply NoDup_cons_iff in N as [N1 N2]. cbn [length plus].
  rewrite (search_hop g es p q _ visited B H) by (apply D; left; auto).
  assert (X : lookup es (fst q) <> None).
  { inversion T as [|? ? ? ? (e & E & _) _]; subst; auto. congruence. }
  destruct (lookup es (fst q)); [|congruence]. rewrite IH; auto.
  - cbn [rev]. rewrite <- app_assoc. reflexivity.
  - intros k Hk [->|V]; [contradiction|]. apply (D k); [right|]; auto.
Qed.

Lemma search_missing g es p l q : built g es -> trail es p l q -> lookup es (fst q) = None -> forall d visited,
  1 <= d -> length l <= d -> NoDup l -> (forall k, In k (l ++ [q]) -> ~ In k visited) ->
  search_field_reference g (fst p) (snd p) d visited = Err (EntityNotFound (fst q)).
Proof.
  intros B T K. induction T as [p|p q l r H T IH]; intros d visited D Ld N V; (destruct d as [|d]; [lia|]).
  - cbn [search_field_reference]. pose proof B as [I _].
    rewrite <- (surjective_pairing p), not_visited, (get_entity_lookup g es _ I), K by (apply V; left; auto). reflexivity.
  - apply NoDup_cons_iff in N as [N1 N2]. cbn [length] in Ld.
    rewrite (search_hop g es p q _ visited B H) by (apply V; left; auto).
    destruct (lookup es (fst q)) eqn:X.
    + destruct l as [|k l]; [inversion T; subst; congruence|].
      apply IH; auto; cbn [length] in *; [lia|lia|].
      intros j Hj Vj. cbn [In] in Vj. destruct Vj as [->|Vj].
      * apply in_app_iff in Hj as [Hj|[<-|[]]]; [contradiction|]. destruct H as (e1 & H & _). congruence.
      * apply (V j); [right|]; auto.
    + assert (q = r) as ->; [|auto]. inversion T as [|? ? ? ? (e & E & _) _]; subst; [auto|congruence].
Qed.

Lemma resolve_failures ops id f l q : trail (spec_run ops) (id, f) l q -> NoDup l ->
  let r := resolve_field_reference (build (run ops)) (VRef (RField id f)) in
  (lookup (spec_run ops) (fst q) = None -> length l <= 10 -> r = Err (EntityNotFound (fst q))) /\
  (forall e, lookup (spec_run ops) (fst q) = Some e -> get_field e (snd q) = None -> length l <= 9 ->
     r = Err (FieldNotFound (fst q) (snd q))) /\
  (In q l -> length l <= 9 -> r = Err CyclicReference) /\
  (forall e, lookup (spec_run ops) (fst q) = Some e -> length l = 10 -> r = Err MaxDepthExceeded).
Proof.
  intros T N r. pose proof (built_run ops) as B. pose proof B as [I _]. unfold r. cbn [resolve_field_reference].
  assert (G : lookup (spec_run ops) (fst q) <> None -> length l <= 10 ->
    search_field_reference (build (run ops)) id f 10 [] =
    search_field_reference (build (run ops)) (fst q) (snd q) (10 - length l) (rev l)).
  { intros K Ll. pose proof (search_trail _ _ _ _ _ B T (10 - length l) [] N (fun _ _ H => H) K) as X.
    cbn [fst snd] in X. replace (length l + (10 - length l)) with 10 in X by lia. rewrite app_nil_r in X. exact X. }
  assert (InK : In q l -> lookup (spec_run ops) (fst q) <> None).
  { clear -T. assert (X : forall k, In k l -> lookup (spec_run ops) (fst k) <> None); [|auto].
    induction T as [p|p q l r (e & E & _) T IH]; intros k; cbn; [tauto|]. intros [<-|Hk]; [congruence|auto]. }
  split; [|split; [|split]].
  - intros K Ll. apply (search_missing _ _ (id, f) l q B T K); auto; lia.
  - intros e K F Ll. rewrite G by (congruence || lia). destruct (10 - length l) as [|d] eqn:D; [lia|].
    cbn [search_field_reference]. rewrite <- (surjective_pairing q), not_visited.
    + rewrite (get_entity_lookup _ _ _ I), K, F. reflexivity.
    + rewrite <- in_rev. intros H. clear -T H K F. induction T as [p|p q l r (e' & E & E2) T IH]; [destruct H|].
      destruct H as [<-|H]; [|auto]. congruence.
  - intros H Ll. rewrite G by (auto; lia). destruct (10 - length l) as [|d] eqn:D; [lia|].
    cbn [search_field_reference]. rewrite <- (surjective_pairing q), visited_yes; auto. rewrite <- in_rev. auto.
  - intros e K Ll. rewrite G by (congruence || lia). rewrite Ll. reflexivity.
Qed.
