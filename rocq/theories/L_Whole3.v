(** Lemmas for C73: answers. *)
From Coq Require Import Lia Permutation.
From Verif Require Import S_Graph L_Graph.
From Verif Require M_Query M_QParse S_Query S_QText L_Whole2 P_Query.
From Verif Require Import S_Whole L_Str L_Text L_Schema L_Ids L_Workspace L_Prompt2 L_Whole.
From Verif Require Import M_Fs M_Dsl.
Close Scope Z_scope.

Lemma nodup_filter {A B} (g : A -> B) (D : A -> bool) l : NoDup (map g l) -> NoDup (map g (filter D l)).
Proof.
  induction l as [|a l IH]; intros N; cbn [filter map] in *; [constructor|]. inversion N as [|? ? NI N']; subst. destruct (D a); [|now apply IH].
  cbn [map]. constructor; [|now apply IH]. intros I. apply NI. apply in_map_iff in I as (b & E & Ib). apply filter_In in Ib as [Ib _]. apply in_map_iff. eauto.
Qed.
Lemma nodup_same {A K} (g : A -> K) l a b : NoDup (map g l) -> In a l -> In b l -> g a = g b -> a = b.
Proof.
  induction l as [|y l IH]; intros N Ia Ib E; [destruct Ia|]. inversion N as [|? ? NI N']; subst. destruct Ia as [->|Ia], Ib as [->|Ib]; auto.
  - exfalso. apply NI. rewrite E. now apply in_map.
  - exfalso. apply NI. rewrite <- E. now apply in_map.
Qed.
Lemma first_field_reads env path fs vs name vn : Forall (fun n => exists name v, n = field_node name v /\ value_syntax v) fs ->
  omap (convert_field env path) fs = Ok vs -> first_field fs name vn -> exists p, value_syntax vn /\ from_node env path vn = Ok p.
Proof.
  intros F O (l & r & -> & _). assert (VS : value_syntax vn).
  { rewrite Forall_forall in F. destruct (F (field_node name vn)) as (nm & v & E & VS); [apply in_or_app; right; now left|]. injection E as _ ->. exact VS. }
  clear F. revert vs O. induction l as [|n l IH]; intros vs O; cbn [app omap] in O.
  - replace (convert_field env path (field_node name vn)) with (obind (omap_err (fun _ : perr => InvalidFieldValue) (from_node env path vn)) (fun p => Ok (name, to_value p))) in O by reflexivity.
    destruct (from_node env path vn) as [p| |] eqn:E; try discriminate. exists p. auto.
  - destruct (convert_field env path n); try discriminate. cbn [obind] in O. destruct (omap (convert_field env path) (l ++ _)) eqn:OM; try discriminate. eapply IH. reflexivity.
Qed.
Lemma identifier_no_dot a : S_QText.identifier a -> ~ In "."%char a.
Proof.
  intros (c & r & -> & H & F) [E|I].
  - subst c. destruct H; discriminate.
  - rewrite Forall_forall in F. specialize (F _ I). cbv in F. repeat destruct F as [F|F]; discriminate.
Qed.
Section Answers.
Context (c : ctx) (x : cli_env) (w : place) (d : fs) (st : state) (B : built c w d st) (HO : S_Query.orders (cl_hash x)).
Let es := b_entities (st_build st).

(** The entity of a block. *)
Definition comes_from (r : list str) (i : str) (fs : list fnode) (t : str) (e : entity) : Prop :=
  exists s bs, source_of w d r s /\ file_syntax bs s /\ In (EntityBlock {| en_type := Some t; en_id := Some i; en_fields := fs |}) bs /\
    e_id e = compose_entity_id t i /\ e_type e = t /\ omap (convert_field (c_env c) (path_text r)) fs = Ok (e_fields e) /\
    Forall (fun n => exists name v, n = field_node name v /\ value_syntax v) fs.
Lemma of_block r s bs t i fs e : source_of w d r s -> file_syntax bs s -> In (EntityBlock {| en_type := Some t; en_id := Some i; en_fields := fs |}) bs ->
  to_entity (c_env c) (path_text r) {| en_type := Some t; en_id := Some i; en_fields := fs |} = Ok e -> comes_from r i fs t e.
Proof.
  intros S F I T. unfold to_entity in T. cbn [en_type en_id en_fields of_option obind] in T. destruct (omap _ fs) as [vs| |] eqn:O; try discriminate. injection T as <-.
  exists s, bs. do 3 (split; [assumption|]). do 2 (split; [reflexivity|]). split; [exact O|].
  destruct (block_shape _ _ _ F I) as (t' & i' & fs' & body & E & FS). injection E as <- <- <-. exact (fields_shape _ _ FS).
Qed.
Lemma served_from t e : In e es -> e_type e = t -> exists r i fs, comes_from r i fs t e.
Proof.
  intros I T. apply (entity_iff c w d st B) in I as (r & s & bs & n & S & F & In' & E).
  destruct (block_shape _ _ _ F In') as (t' & i & fs & body & -> & FS). pose proof (of_block _ _ _ _ _ _ _ S F In' E) as X.
  assert (t' = t) as -> by (destruct X as (? & ? & _ & _ & _ & _ & T' & _); congruence). exists r, i, fs. exact X.
Qed.
Lemma declared_served t i fs : declares w d t i fs -> exists r e, In e es /\ comes_from r i fs t e.
Proof.
  intros (r & s & bs & S & F & I). destruct (built_parts c w d st B) as (ss & (_ & R & _) & _).
  assert (Ib : In (path_text r, {| en_type := Some t; en_id := Some i; en_fields := fs |}) (entity_blocks (st_files st))) by (apply (block_iff c w d st B); exists r, s, bs; auto).
  destruct (L_Load.Forall2_in_l _ _ _ _ R Ib) as (e & Ie & T). exists r, e. split; [exact Ie|]. exact (of_block _ _ _ _ _ _ _ S F I T).
Qed.
Lemma select_declared t : new_id t = t -> (exists i fs, declares w d t i fs) ->
  M_Query.select_from (st_graph st) (cl_hash x) (M_Query.SType (new_id t)) = M_Graph.Ok (filter (fun e => str_eqb (e_type e) t) es).
Proof.
  intros N (i & fs & D). destruct (built_parts c w d st B) as (ss & _ & _ & _ & EG & SR). rewrite EG, N.
  unfold es. rewrite (proj1 (proj2 (P_Query.C18_from_selects_exactly [OAddMany (b_entities (st_build st))] (cl_hash x) HO)) t); [rewrite SR; reflexivity|].
  rewrite SR. destruct (declared_served t i fs D) as (r & e & I & (_ & _ & _ & _ & _ & _ & T & _)). exists e. auto.
Qed.
Lemma select_undeclared t : new_id t = t -> ~ (exists i fs, declares w d t i fs) ->
  exists er, M_Query.select_from (st_graph st) (cl_hash x) (M_Query.SType (new_id t)) = M_Graph.Err er.
Proof.
  intros N U. destruct (built_parts c w d st B) as (ss & _ & _ & _ & EG & SR). rewrite EG, N.
  destruct (proj2 (proj2 (P_Query.C18_from_selects_exactly [OAddMany (b_entities (st_build st))] (cl_hash x) HO)) t) as (l & ->); [|eauto].
  rewrite SR. intros (e & I & T). apply U. destruct (served_from t e I T) as (r & i & fs & (s & bs & S & F & Ib & _)). exists i, fs, r, s, bs. auto.
Qed.
Lemma ids_listed t id : In id (map e_id (filter (fun e => str_eqb (e_type e) t) es)) <-> exists i fs, declares w d t i fs /\ id = compose_entity_id t i.
Proof.
  rewrite in_map_iff. split.
  - intros (e & <- & I). apply filter_In in I as [I T]. apply str_eqb_eq in T. destruct (served_from t e I T) as (r & i & fs & (s & bs & S & F & Ib & E & _)).
    exists i, fs. split; [exists r, s, bs; auto|exact E].
  - intros (i & fs & D & ->). destruct (declared_served t i fs D) as (r & e & I & (s & bs & S & F & Ib & E & T & _)). exists e. split; [exact E|].
    apply filter_In. split; [exact I|]. rewrite T. apply str_eqb_refl.
Qed.
(** A field the schema gives a type has it. *)
Lemma field_has_type t f ty e v : field_typed st t f ty -> In e es -> e_type e = t -> get_field e f = Some v -> has_type v ty.
Proof.
  intros (s & fd & Is & Ts & If & Tf) Ie Te G. destruct (built_parts c w d st B) as (ss & (_ & _ & ND & C) & PS & _). apply PS in Is.
  destruct (C e Ie) as (s' & Is' & CF). destruct CF as [T CF]. assert (s' = s) as ->.
  { apply (nodup_same s_type ss); auto. congruence. }
  destruct (CF f fd If) as (_ & CT & _). rewrite <- Tf. apply CT. now apply get_field_some.
Qed.
(** Where a field is tested. *)
Lemma found t f o fv text ty (P : value -> bool) (Q : vnode -> Prop) : plain_name t -> plain_name f -> field_typed st t f ty -> (exists i fs, declares w d t i fs) ->
  M_QParse.read_query text = M_Graph.Ok (L_Whole2.ask t (L_Whole2.only_where f o fv) None) ->
  (forall v, has_type v ty -> M_Query.compare_value (cl_ext x) v o fv = M_Graph.Ok (P v)) ->
  (forall path vn p, value_syntax vn -> from_node (c_env c) path vn = Ok p -> has_type (to_value p) ty -> (P (to_value p) = true <-> Q vn)) ->
  exists r, finds x st text r /\ forall id, In id (map e_id r) <->
    exists i fs vn, declares w d t i fs /\ id = compose_entity_id t i /\ first_field fs f vn /\ Q vn.
Proof.
  intros [_ NT] [_ NF] FT DE RQ CV PQ. set (D := fun e => match get_field e f with Some v => P v | None => false end).
  exists (filter D (filter (fun e => str_eqb (e_type e) t) es)). split.
  - split.
    + unfold query_text. rewrite RQ. rewrite (L_Whole2.ask_where _ _ _ _ _ _ _ _ D (select_declared t NT DE)); [reflexivity|].
      intros e I. apply filter_In in I as [I T]. apply str_eqb_eq in T. unfold M_Query.matches, D. cbn [M_Query.c_field M_Query.c_op M_Query.c_value]. rewrite NF.
      destruct (get_field e f) as [v|] eqn:G; [|reflexivity]. apply CV. exact (field_has_type t f ty e v FT I T G).
    + apply nodup_filter, nodup_filter. destruct (built_parts c w d st B) as (ss & _ & _ & ND & _). exact ND.
  - intros id. rewrite in_map_iff. split.
    + intros (e & <- & I). apply filter_In in I as [I Dt]. apply filter_In in I as [I T]. apply str_eqb_eq in T.
      destruct (served_from t e I T) as (r & i & fs & (s & bs & S & F & Ib & E & _ & O & SH)). unfold D in Dt. destruct (get_field e f) as [v|] eqn:G; [|discriminate].
      pose proof (field_has_type t f ty e v FT I T G) as HT.
      apply get_field_some in G. destruct (proj1 (first_field_iff _ _ _ _ f SH O v) G) as (vn & p & FF & VS & FN & V). subst v.
      exists i, fs, vn. split; [exists r, s, bs; auto|]. split; [exact E|]. split; [exact FF|]. exact (proj1 (PQ _ _ _ VS FN HT) Dt).
    + intros (i & fs & vn & DC & -> & FF & QV). destruct (declared_served t i fs DC) as (r & e & I & (s & bs & S & F & Ib & E & T & O & SH)).
      exists e. split; [exact E|]. apply filter_In. split; [apply filter_In; split; [exact I|rewrite T; apply str_eqb_refl]|].
      destruct (first_field_reads _ _ _ _ f vn SH O FF) as (p & VS & FN).
      assert (G : get_field e f = Some (to_value p)) by (apply get_field_some, (first_field_iff _ _ _ _ f SH O); exists vn, p; auto).
      unfold D. rewrite G. apply (proj2 (PQ _ _ _ VS FN (field_has_type t f ty e _ FT I T G))). exact QV.
Qed.

Lemma text_found t f o s : plain_name t -> plain_name f -> field_typed st t f TStr -> (exists i fs, declares w d t i fs) -> tests_text o -> query_literal s ->
  exists r, finds x st (where_query t f o ([DQ] ++ s ++ [DQ])) r /\ forall id, In id (map e_id r) <->
    exists i fs vn, declares w d t i fs /\ id = compose_entity_id t i /\ first_field fs f vn /\ exists a raw, vn = VNode (Some KString) raw [] /\ text_literal raw a /\ text_test o a s.
Proof.
  intros T F FT DE TO [NQ NB]. apply (found t f o (M_Query.FStr s) _ TStr
    (fun v => match v with VStr a => match M_Query.text_op o a s with Some b => b | None => false end | _ => false end)); auto.
  - exact (L_Whole2.read_text t f o s (proj1 T) (proj1 F) NQ NB).
  - intros v H. destruct v; try now inversion H. unfold M_Query.compare_value, M_Query.compare_string. repeat (destruct TO as [<-|TO]; [reflexivity|]). destruct TO.
  - intros path vn p VS FN H.
    assert (PV : exists a, to_value p = VStr a) by (destruct p; try now inversion H; eexists; reflexivity). destruct PV as [a PV]. rewrite PV.
    pose proof (proj1 (text_value _ _ _ _ a VS FN) PV) as (raw & -> & TL).
    assert (X : match M_Query.text_op o a s with Some b => b | None => false end = true <-> text_test o a s).
    { clear - TO. repeat (destruct TO as [<-|TO]; [cbn [M_Query.text_op text_test]; try rewrite negb_true_iff, <- not_true_iff_false; rewrite ?eq_ignore_case_spec, ?contains_spec, ?starts_with_spec, ?ends_with_spec; reflexivity|]).
      destruct TO. }
    rewrite X. split; [exists a, raw; auto|]. intros (a' & raw' & E & TL' & TT). injection E as <-.
    pose proof (proj2 (text_value _ _ _ _ a' VS FN) (ex_intro _ raw (conj eq_refl TL'))) as PV'. assert (a' = a) as -> by congruence. exact TT.
Qed.
Lemma integer_found t f o k : plain_name t -> plain_name f -> field_typed st t f TInt -> (exists i fs, declares w d t i fs) -> tests_integer o -> in_i64 k = true -> S_Round.has_53_digits k ->
  exists r, finds x st (where_query t f o (show_Z k)) r /\ forall id, In id (map e_id r) <->
    exists i fs vn, declares w d t i fs /\ id = compose_entity_id t i /\ first_field fs f vn /\ exists z raw, vn = VNode (Some KNumber) raw [] /\ integer_literal raw z /\ integer_test o z k.
Proof.
  intros T F FT DE TO K KD. apply (found t f o (M_Query.FInt k) _ TInt
    (fun v => match v with VInt z => match M_Query.ord_op o (Z.compare z k) with Some b => b | None => false end | _ => false end)); auto.
  - exact (L_Whole2.read_integer t f o k (proj1 T) (proj1 F) K KD).
  - intros v H. destruct v; try now inversion H. unfold M_Query.compare_value, M_Query.compare_integer.
    repeat (destruct TO as [<-|TO]; [destruct (Z.compare _ _); reflexivity|]). destruct TO.
  - intros path vn p VS FN H.
    assert (PV : exists z, to_value p = VInt z) by (destruct p; try now inversion H; eexists; reflexivity). destruct PV as [z PV]. rewrite PV.
    pose proof (proj1 (integer_value _ _ _ _ z VS FN) PV) as (raw & -> & TL).
    assert (X : match M_Query.ord_op o (Z.compare z k) with Some b => b | None => false end = true <-> integer_test o z k).
    { clear - TO. repeat (destruct TO as [<-|TO]; [cbn [integer_test]; destruct (Z.compare_spec z k); cbn [M_Query.ord_op]; split; intros; try discriminate; try reflexivity; lia|]).
      destruct TO. }
    rewrite X. split; [exists z, raw; auto|]. intros (a' & raw' & E & TL' & TT). injection E as <-.
    pose proof (proj2 (integer_value _ _ _ _ a' VS FN) (ex_intro _ raw (conj eq_refl TL'))) as PV'. assert (a' = z) as -> by congruence. exact TT.
Qed.
Lemma one_dot a b : S_QText.identifier a -> S_QText.identifier b -> dots (a ++ L "." ++ b) = L ".".
Proof.
  intros A B'. rewrite !dots_app. rewrite (proj2 (dots_free a)), (proj2 (dots_free b)); [reflexivity| |]; apply identifier_no_dot; assumption.
Qed.
Lemma reference_found t f a b : plain_name t -> plain_name f -> field_typed st t f TRef -> (exists i fs, declares w d t i fs) -> S_QText.identifier a -> S_QText.identifier b ->
  compose_entity_id a b = a ++ L "." ++ b ->
  exists r, finds x st (where_query t f M_Query.OpEq (a ++ L "." ++ b)) r /\ forall id, In id (map e_id r) <->
    exists i fs vn, declares w d t i fs /\ id = compose_entity_id t i /\ first_field fs f vn /\
      exists a' b', vn = VNode (Some KReference) (a' ++ L "." ++ b') [] /\ name_syntax a' /\ name_syntax b' /\ compose_entity_id a' b' = compose_entity_id a b.
Proof.
  intros T F FT DE A B' C. apply (found t f M_Query.OpEq (M_Query.FRef (a ++ L "." ++ b)) _ TRef
    (fun v => match v with VRef r => eq_ignore_case (ref_display r) (a ++ L "." ++ b) | _ => false end)); auto.
  - exact (L_Whole2.read_reference t f M_Query.OpEq a b (proj1 T) (proj1 F) A B').
  - intros v H. destruct v; now inversion H.
  - intros path vn p VS FN H.
    assert (PV : exists r, to_value p = VRef r) by (destruct p; try now inversion H; eexists; reflexivity). destruct PV as [r PV]. rewrite PV, eq_ignore_case_spec.
    assert (LO : lower (a ++ L "." ++ b) = a ++ L "." ++ b) by (rewrite <- C; apply compose_lower). rewrite LO.
    destruct r as [id|id g].
    + pose proof (proj1 (reference_value _ _ _ _ id VS FN) PV) as (a' & b' & -> & NA & NB & ->). cbn [ref_display]. rewrite compose_lower. rewrite C.
      split; [intros E; exists a', b'; auto|]. intros (a2 & b2 & E & NA2 & NB2 & E2).
      pose proof (proj2 (reference_value _ _ _ _ (compose_entity_id a2 b2) VS FN) (ex_intro _ a2 (ex_intro _ b2 (conj E (conj NA2 (conj NB2 eq_refl)))))) as PV'.
      rewrite PV' in PV. injection PV as PV. rewrite <- E2. symmetry. exact PV.
    + split.
      * intros E. exfalso. apply (f_equal dots) in E. rewrite one_dot, dots_lower in E by assumption. cbn [ref_display] in E. rewrite !dots_app in E.
        destruct p; try discriminate. injection PV as <- <-. revert E. unfold compose_entity_id, new_id. rewrite dots_snake, !dots_app, dots_lower. 
        intros E. apply (f_equal (@length ascii)) in E. rewrite !app_length in E. cbn [length dots filter L list_ascii_of_string Ascii.eqb Bool.eqb] in E. lia.
      * intros (a2 & b2 & E & NA2 & NB2 & E2). exfalso.
        pose proof (proj2 (reference_value _ _ _ _ (compose_entity_id a2 b2) VS FN) (ex_intro _ a2 (ex_intro _ b2 (conj E (conj NA2 (conj NB2 eq_refl)))))) as PV'. congruence.
Qed.
End Answers.
