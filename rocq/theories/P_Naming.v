(** C04: exactly which names a query can ask for. *)
From Verif Require Import M_Workspace M_Server M_Cli M_Query M_QParse S_QText L_Ids L_QParse S_Accept L_Accept P_QParse P_Accept S_Naming.
Close Scope Z_scope.

Lemma identifier_normal n : identifier n -> normal_name (new_id n).
Proof.
  intros (c & r & E & C & F). split; [apply to_snake_idem|].
  assert (A : Forall letter_or_digit n).
  { subst n. constructor; [|exact F]. destruct C as [C| ->]; [left; unfold is_alnum; rewrite C; reflexivity|right; reflexivity]. }
  clear E C F. apply Forall_forall. intros y I. unfold new_id in I. destruct (to_snake_chars n y I) as (_ & N1 & N2).
  destruct (is_sep y) eqn:S1.
  - right. unfold is_sep in S1. repeat (apply Bool.orb_true_iff in S1 as [S1|S1]); apply Ascii.eqb_eq in S1; congruence.
  - left. assert (J : In y (unsep (to_snake n))) by (apply filter_In; rewrite S1; auto). rewrite unsep_to_snake in J.
    unfold lower in J. apply in_map_iff in J as (z & <- & J). apply filter_In in J as [J1 J2].
    rewrite Forall_forall in A. destruct (A z J1) as [K| ->]; [|discriminate].
    unfold is_alnum in *. rewrite lower_alpha, lower_digit. exact K.
Qed.
Lemma normal_of_identifier f : normal_name f -> identifier ("_"%char :: f) /\ new_id ("_"%char :: f) = f.
Proof.
  intros (E & F). split; [exists "_"%char, f; auto|]. rewrite <- E at 2. reflexivity.
Qed.
Lemma field_asked f t r n : field_tokens f t -> means_field f r -> r = FReg n -> normal_name n.
Proof.
  intros T M ->. destruct f as [m|m]; cbn in *; [decompose [and or] M; discriminate|]. destruct T as [T _]. injection M as ->. apply identifier_normal, T.
Qed.
Lemma more_fields_each fs ts rs : more_fields fs ts -> Forall2 means_field fs rs -> forall n, In (FReg n) rs -> normal_name n.
Proof.
  intros T. revert rs. induction T as [|f fs t ts T1 T2 IH]; intros rs F n I; inversion F; subst; [destruct I|].
  destruct I as [E|I]; [eapply field_asked; eauto|eauto].
Qed.
Lemma operations_each {P : operation -> Prop} os ts rs : operations_tokens os ts -> Forall2 means_operation os rs ->
  (forall o t r, operation_tokens o t -> means_operation o r -> P r) -> forall r, In r rs -> P r.
Proof.
  intros T F K. revert ts T. induction F as [|o r os rs M F IH]; intros ts T x I; [destruct I|]. inversion T as [|? ? t ts1 T1 T2]; subst.
  destruct I as [<-|I]; eauto.
Qed.

(** The fields a query can ask for are those with a name in normal form, of
    letters, digits and underscores. *)
Theorem C04_fields_that_can_be_asked_for : forall f,
  (exists text r, read_query text = Ok r /\ asks_field r f) <-> normal_name f.
Proof.
  intros f. split.
  - intros (text & r & H & A). destruct (C78_what_is_run_is_written text r H) as (q & (sel & ops & agg & _ & OT & AT & _) & (_ & M & MA)).
    destruct A as [cc c I1 I2 E|dir I|a E I].
    + refine (operations_each (P := fun o => match o with QWhere cc => forall c, In c (cc_conds cc) -> c_field c = FReg f -> normal_name f | _ => True end) _ _ _ OT M _ _ I1 c I2 E).
      clear. intros o t r T Mo. destruct Mo as [cs ds k F| | | | |]; auto. intros c I E. cbn [cc_conds] in I.
      inversion T as [d0 ds0 k' ks t0 ts0 C MC X1 X2| | | | | | | |]; subst. inversion F as [|? c1 ? cs1 M1 M2 E1 E2]; subst.
      destruct I as [-> |I]; [destruct C as (u & v & FT & _), M1 as (MF & _); eapply field_asked; eauto|].
      clear - MC M2 I E. revert cs1 M2 I. induction MC as [|k ks d ds t w ts C _ _ IH]; intros cs1 M2 I; inversion M2 as [|? c2 ? cs2 M3 M4]; subst; [destruct I|].
      destruct I as [-> |I]; [destruct C as (u & v & FT & _), M3 as (MF & _); eapply field_asked; eauto|eauto].
    + refine (operations_each (P := fun o => match o with QOrder r _ => r = FReg f -> normal_name f | _ => True end) _ _ _ OT M _ _ I eq_refl).
      clear. intros o t r T Mo. destruct Mo as [| | | |f' r dir MF|]; auto. intros E. inversion T; subst; eapply field_asked; eauto.
    + destruct (pq_agg q) as [a'|], (q_agg r) as [a''|]; try contradiction; try discriminate. injection E as ->. destruct AT as (t & AT & _).
      destruct MA as [fs rs F| |f' r' F|f' r' F|f' r' F|f' r' F]; cbn [aggregated] in I; [|destruct I|..].
      * inversion AT as [f0 fs0 t0 ts0 T1 T2| | | | |]; subst. inversion F; subst. destruct I as [E|I]; [eapply field_asked; eauto|eapply more_fields_each; eauto].
      * destruct I as [E|[]]. inversion AT; subst; eapply field_asked; eauto.
      * destruct I as [E|[]]. inversion AT; subst; eapply field_asked; eauto.
      * destruct I as [E|[]]. inversion AT; subst; eapply field_asked; eauto.
      * destruct I as [E|[]]. inversion AT; subst; eapply field_asked; eauto.
  - intros NF. destruct (normal_of_identifier f NF) as (I & E). set (n := "_"%char :: f) in *.
    set (q := {| pq_from := RAny; pq_ops := []; pq_agg := Some (PaCount (Some (RfReg n))) |}).
    assert (P : parse_query (join (L " ") (L "from" :: L "*" :: [] ++ L "|" :: L "count" :: [n])) = Ok q).
    { apply C21_single_blanks; [reflexivity|constructor| |].
      - eexists. split; [|reflexivity]. constructor. split; auto.
      - intros u H F. cbn in H. pose proof (time_form_blank u F) as (_ & y & r & E' & D).
        destruct H as [<-|[<-|[<-|[]]]]; injection E' as <- _; discriminate. }
    eexists _, (to_query q). split; [unfold read_query; rewrite P; reflexivity|]. eapply af_aggregate; [reflexivity|]. cbn [aggregated to_aggregation option_map to_field].
    left. rewrite E. reflexivity.
Qed.
Print Assumptions C04_fields_that_can_be_asked_for.
(** The same holds of types. *)
Theorem C04_types_that_can_be_asked_for : forall t,
  (exists text r, read_query text = Ok r /\ asks_type r t) <-> normal_name t.
Proof.
  intros t. split.
  - intros (text & r & H & A). destruct (C78_what_is_run_is_written text r H) as (q & (sel & ops & agg & ST & OT & _) & (MS & M & _)).
    destruct A as [E|n I].
    + destruct (pq_from q) as [|m]; cbn in MS, ST; [congruence|]. destruct ST as [ST _]. assert (t = new_id m) by congruence. subst t. apply identifier_normal, ST.
    + refine (operations_each (P := fun o => match o with QRelated _ s => s = Some t -> normal_name t | _ => True end) _ _ _ OT M _ _ I eq_refl).
      clear. intros o ts r T Mo. destruct Mo as [| | |d m| |]; auto; try discriminate. intros E. injection E as <-.
      inversion T as [| |s u S1| |k v s u _ S1| | | |]; subst; destruct S1 as [S1 _]; apply identifier_normal, S1.
  - intros NF. destruct (normal_of_identifier t NF) as (I & E). set (n := "_"%char :: t) in *.
    set (q := {| pq_from := RType n; pq_ops := []; pq_agg := None |}).
    assert (P : parse_query (join (L " ") (L "from" :: n :: [] ++ [])) = Ok q).
    { apply C21_single_blanks; [split; auto|constructor|reflexivity|intros u []]. }
    eexists _, (to_query q). split; [unfold read_query; rewrite P; reflexivity|]. apply aty_from. exact (f_equal SType E).
Qed.
Print Assumptions C04_types_that_can_be_asked_for.
(** So no query, however it is written, asks for a field or a type declared in another spelling. *)
Theorem C04_other_spellings_are_out_of_reach : forall n, ~ normal_name n -> forall text r, read_query text = Ok r -> ~ asks_field r n /\ ~ asks_type r n.
Proof.
  intros n N text r H. split; intros A; apply N; [apply (proj1 (C04_fields_that_can_be_asked_for n))|apply (proj1 (C04_types_that_can_be_asked_for n))]; eauto.
Qed.
Print Assumptions C04_other_spellings_are_out_of_reach.
Example C04_naming_case : normal_name (L "key_result") /\ normal_name (L "1") /\ ~ normal_name (L "line1") /\ ~ normal_name (L "KeyResult") /\
  exists r, read_query (L "from * | where _1 > 0") = Ok r /\ asks_field r (L "1").
Proof.
  split; [split; [vm_compute; reflexivity|repeat (constructor; [first [left; reflexivity|right; reflexivity]|]); constructor]|]. split; [split; [vm_compute; reflexivity|repeat constructor]|].
  split; [intros [H _]; vm_compute in H; discriminate|]. split; [intros [H _]; vm_compute in H; discriminate|].
  eexists. split; [vm_compute; reflexivity|]. eapply af_where; [left; reflexivity|left; reflexivity|reflexivity].
Qed.
