(** C73: the integers of the source files are what sums are of. *)
From Coq Require Import Permutation Lia.
From Verif Require Import S_Graph L_Graph.
From Verif Require M_Query M_QParse S_Query S_QText P_Query P_Agg P_QParse L_QParse L_Whole2 L_Median.
From Verif Require Import S_Whole S_Cli L_Str L_Text L_Schema L_Ids L_Fs L_Workspace L_Syntax L_Syntax2 L_Syntax3 L_Syntax5 L_Whole L_Whole3.
From Verif Require Import P_Schema P_Dsl P_Server P_Add P_Cli P_Grow P_Syntax P_Whole.
From Verif Require Import M_Fs M_Dsl S_Whole.
Close Scope Z_scope.

Lemma read_sum t f : S_QText.identifier t -> S_QText.identifier f ->
  M_QParse.read_query (L "from " ++ t ++ L " | sum " ++ f) = M_Graph.Ok (L_Whole2.ask t [] (Some (M_Query.ASum (M_Query.FReg (new_id f))))).
Proof.
  intros IT IF. set (q := {| M_QParse.pq_from := M_QParse.RType t; M_QParse.pq_ops := []; M_QParse.pq_agg := Some (M_QParse.PaSum (M_QParse.RfReg f)) |}).
  assert (P : M_QParse.parse_query (join (L " ") (L "from" :: t :: [] ++ [L "|"; L "sum"; f])) = M_Graph.Ok q).
  { apply P_QParse.C21_single_blanks; [split; auto|exact S_QText.os_nil|exists [L "sum"; f]; split; [apply (S_QText.at_sum (M_QParse.RfReg f) [f]); split; [exact IF|reflexivity]|reflexivity]|].
    intros u H F. destruct H as [<-|[<-|[<-|[]]]]; [| |exact (L_QParse.identifier_not_time f IF F)];
      pose proof (L_QParse.time_form_blank _ F) as (_ & y & r & E & D); injection E as <- _; discriminate. }
  assert (E : L "from " ++ t ++ L " | sum " ++ f = join (L " ") (L "from" :: t :: [] ++ [L "|"; L "sum"; f])) by reflexivity.
  rewrite E. unfold M_QParse.read_query. rewrite P. reflexivity.
Qed.

Lemma read_average t f : S_QText.identifier t -> S_QText.identifier f ->
  M_QParse.read_query (L "from " ++ t ++ L " | average " ++ f) = M_Graph.Ok (L_Whole2.ask t [] (Some (M_Query.AAverage (M_Query.FReg (new_id f))))).
Proof.
  intros IT IF. set (q := {| M_QParse.pq_from := M_QParse.RType t; M_QParse.pq_ops := []; M_QParse.pq_agg := Some (M_QParse.PaAverage (M_QParse.RfReg f)) |}).
  assert (P : M_QParse.parse_query (join (L " ") (L "from" :: t :: [] ++ [L "|"; L "average"; f])) = M_Graph.Ok q).
  { apply P_QParse.C21_single_blanks; [split; auto|exact S_QText.os_nil|exists [L "average"; f]; split; [apply (S_QText.at_average (M_QParse.RfReg f) [f]); split; [exact IF|reflexivity]|reflexivity]|].
    intros u H F. destruct H as [<-|[<-|[<-|[]]]]; [| |exact (L_QParse.identifier_not_time f IF F)];
      pose proof (L_QParse.time_form_blank _ F) as (_ & y & r & E & D); injection E as <- _; discriminate. }
  assert (E : L "from " ++ t ++ L " | average " ++ f = join (L " ") (L "from" :: t :: [] ++ [L "|"; L "average"; f])) by reflexivity.
  rewrite E. unfold M_QParse.read_query. rewrite P. reflexivity.
Qed.

Lemma read_median t f : S_QText.identifier t -> S_QText.identifier f ->
  M_QParse.read_query (L "from " ++ t ++ L " | median " ++ f) = M_Graph.Ok (L_Whole2.ask t [] (Some (M_Query.AMedian (M_Query.FReg (new_id f))))).
Proof.
  intros IT IF. set (q := {| M_QParse.pq_from := M_QParse.RType t; M_QParse.pq_ops := []; M_QParse.pq_agg := Some (M_QParse.PaMedian (M_QParse.RfReg f)) |}).
  assert (P : M_QParse.parse_query (join (L " ") (L "from" :: t :: [] ++ [L "|"; L "median"; f])) = M_Graph.Ok q).
  { apply P_QParse.C21_single_blanks; [split; auto|exact S_QText.os_nil|exists [L "median"; f]; split; [apply (S_QText.at_median (M_QParse.RfReg f) [f]); split; [exact IF|reflexivity]|reflexivity]|].
    intros u H F. destruct H as [<-|[<-|[<-|[]]]]; [| |exact (L_QParse.identifier_not_time f IF F)];
      pose proof (L_QParse.time_form_blank _ F) as (_ & y & r & E & D); injection E as <- _; discriminate. }
  assert (E : L "from " ++ t ++ L " | median " ++ f = join (L " ") (L "from" :: t :: [] ++ [L "|"; L "median"; f])) by reflexivity.
  rewrite E. unfold M_QParse.read_query. rewrite P. reflexivity.
Qed.

Section Answers.
Context (c : ctx) (x : cli_env) (w : place) (d : fs) (st : state) (B : built c w d st) (HO : S_Query.orders (cl_hash x)).
Let es := b_entities (st_build st).
Lemma integer_of t f e z : field_typed st t f TInt -> In e es -> e_type e = t ->
  (get_field e f = Some (VInt z) <-> exists i fs, declares w d t i fs /\ e_id e = compose_entity_id t i /\ has_integer fs f z).
Proof.
  intros FT I T. split.
  - intros G. destruct (served_from c w d st B t e I T) as (r & i & fs & (s & bs & S & F & Ib & E & _ & O & SH)).
    apply get_field_some in G. destruct (proj1 (first_field_iff _ _ _ _ f SH O _) G) as (vn & p & FF & VS & FN & V).
    apply (integer_value _ _ _ _ z VS FN) in V as (raw & -> & IL). exists i, fs. split; [exists r, s, bs; auto|]. split; [exact E|]. exists raw. auto.
  - intros (i & fs & DC & E & (raw & FF & IL)). destruct (declared_served c w d st B t i fs DC) as (r & e' & I' & (s & bs & S & F & Ib & E' & _ & O & SH)).
    destruct (built_parts c w d st B) as (ss & _ & _ & ND & _). assert (e' = e) as -> by (apply (nodup_same e_id es); auto; congruence).
    destruct (first_field_reads _ _ _ _ f _ SH O FF) as (p & VS & FN).
    assert (V : to_value p = VInt z) by (apply (integer_value _ _ _ _ z VS FN); eauto).
    apply get_field_some, (first_field_iff _ _ _ _ f SH O). eauto 10.
Qed.
End Answers.

(** The integers that are declared, each entity's once. *)
Lemma declared_integers c w d st t f : built c w d st -> field_typed st t f TInt ->
  exists l, NoDup (map fst l) /\
    (forall id z, In (id, z) l <-> exists i fs, declares w d t i fs /\ id = compose_entity_id t i /\ has_integer fs f z) /\
    S_Query.column f (filter (fun e => str_eqb (e_type e) t) (b_entities (st_build st))) = map VInt (map snd l).
Proof.
  intros B FT. set (es := filter (fun e => str_eqb (e_type e) t) (b_entities (st_build st))).
  set (g := fun e : entity => match get_field e f with Some (VInt z) => [(e_id e, z)] | _ => [] end).
  assert (ND : NoDup (map e_id es)) by (apply nodup_filter; destruct (built_parts c w d st B) as (ss & _ & _ & ND & _); exact ND).
  assert (IE : forall e, In e es <-> In e (b_entities (st_build st)) /\ e_type e = t) by (intros e; unfold es; rewrite filter_In, str_eqb_eq; reflexivity).
  assert (IG : forall id z, In (id, z) (flat_map g es) <-> exists e, In e es /\ e_id e = id /\ get_field e f = Some (VInt z)).
  { intros id z. rewrite in_flat_map. split; intros (e & I & H); exists e; (split; [exact I|]).
    - unfold g in H. destruct (get_field e f) as [[]|]; try (exfalso; exact H); destruct H as [H|[]]. injection H as <- <-. auto.
    - destruct H as [<- H]. unfold g. rewrite H. now left. }
  exists (flat_map g es). split; [|split].
  - clear - ND. induction es as [|e l IH]; [constructor|]. cbn [flat_map]. rewrite map_app. cbn [map] in ND. inversion ND as [|? ? NI ND']; subst. specialize (IH ND').
    assert (X : g e = [] \/ exists z, g e = [(e_id e, z)]) by (unfold g; destruct (get_field e f) as [[]|]; eauto).
    destruct X as [-> | (z & ->)]; [exact IH|]. cbn [map app fst]. constructor; [|exact IH]. intros I. apply NI. apply in_map_iff in I as ([id z'] & E & I). cbn [fst] in E. subst id.
    apply in_flat_map in I as (e' & I & H). apply in_map_iff. exists e'. split; [|exact I]. unfold g in H. destruct (get_field e' f) as [[]|]; try (exfalso; exact H); destruct H as [H|[]]. now injection H.
  - intros id z. rewrite IG. split.
    + intros (e & I & <- & G). apply IE in I as [I T]. apply (integer_of c w d st B t f e z FT I T) in G as (i & fs & D & E & H). exists i, fs. auto.
    + intros (i & fs & D & -> & H). destruct (declared_served c w d st B t i fs D) as (r & e & I & (s & bs & _ & _ & _ & E & T & _)). exists e. split; [now apply IE|]. split; [exact E|].
      apply (integer_of c w d st B t f e z FT I T). exists i, fs. auto.
  - assert (A : forall e, In e es -> forall v, get_field e f = Some v -> exists z, v = VInt z).
      { intros e I v G. apply IE in I as [I T]. pose proof (field_has_type c w d st B t f TInt e v FT I T G) as HT. inversion HT. eauto. }
      unfold S_Query.column. clearbody es. clear - A. induction es as [|e l IH]; [reflexivity|]. cbn [flat_map]. rewrite !map_app, IH by (intros e' I; apply A; now right). f_equal.
      unfold g. destruct (get_field e f) as [v|] eqn:G; [|reflexivity]. destruct (A e (or_introl eq_refl) v G) as (z & ->). reflexivity.
Qed.

(** [from t | sum f], for a field the schema calls an integer: the sum of the
    integers that are declared, each entity's once. *)
Theorem C73_integers_are_summed : forall c x w d st t f, built c w d st -> S_Query.orders (cl_hash x) -> plain_name t -> plain_name f ->
  field_typed st t f TInt -> (exists i fs, declares w d t i fs) ->
  exists l, NoDup (map fst l) /\
    (forall id z, In (id, z) l <-> exists i fs, declares w d t i fs /\ id = compose_entity_id t i /\ has_integer fs f z) /\
    ((S_Query.total (map Z.abs (map snd l)) <= i64_max)%Z ->
     query_text x (st_graph st) (L "from " ++ t ++ L " | sum " ++ f) = Some (M_Query.QAgg (M_Query.RSum (M_Query.AVInt (S_Query.total (map snd l)))))).
Proof.
  intros c x w d st t f B HO [IT NT] [IF NF] FT DE. destruct (declared_integers c w d st t f B FT) as (l & ND & IL & C). exists l. split; [exact ND|]. split; [exact IL|].
  intros H. unfold query_text. rewrite (read_sum t f IT IF), NF. unfold M_Query.execute, L_Whole2.ask. cbn [M_Query.q_from M_Query.q_ops M_Query.q_agg].
  rewrite (select_declared c x w d st B HO t NT DE).
  pose proof (P_Agg.C16_integer_sum_exact (cl_ext x) f _ _ C H) as R. cbn -[M_Query.exec_agg S_Query.total filter]. rewrite R. reflexivity.
Qed.
Print Assumptions C73_integers_are_summed.

(** [from t | average f]: their total over their number, both exact when the
    total is below 2^53; with no such field anywhere, an error. *)
Theorem C73_integers_are_averaged : forall c x w d st t f, built c w d st -> S_Query.orders (cl_hash x) -> plain_name t -> plain_name f ->
  field_typed st t f TInt -> (exists i fs, declares w d t i fs) ->
  exists l, NoDup (map fst l) /\
    (forall id z, In (id, z) l <-> exists i fs, declares w d t i fs /\ id = compose_entity_id t i /\ has_integer fs f z) /\
    (l = [] -> query_text x (st_graph st) (L "from " ++ t ++ L " | average " ++ f) = None) /\
    (l <> [] -> (S_Query.total (map Z.abs (map snd l)) < 2 ^ 53)%Z ->
     query_text x (st_graph st) (L "from " ++ t ++ L " | average " ++ f) =
     Some (M_Query.QAgg (M_Query.RAverage (f_div (f_of_Z (S_Query.total (map snd l))) (f_of_Z (Z.of_nat (length l))))))).
Proof.
  intros c x w d st t f B HO [IT NT] [IF NF] FT DE. destruct (declared_integers c w d st t f B FT) as (l & ND & IL & C). exists l. split; [exact ND|]. split; [exact IL|].
  unfold query_text. rewrite (read_average t f IT IF), NF. unfold M_Query.execute, L_Whole2.ask. cbn [M_Query.q_from M_Query.q_ops M_Query.q_agg].
  rewrite (select_declared c x w d st B HO t NT DE). split.
  - intros ->. pose proof (proj1 (P_Agg.C17_empty_is_an_error (cl_ext x) f _ C)) as R. cbn -[M_Query.exec_agg S_Query.total filter]. rewrite R. reflexivity.
  - intros NE H. assert (NE' : map snd l <> []) by (destruct l; [contradiction|discriminate]).
    pose proof (P_Agg.C17_integer_average_is_exact_total_over_count (cl_ext x) f _ _ C NE' H) as R. rewrite map_length in R.
    cbn -[M_Query.exec_agg S_Query.total filter f_div f_of_Z]. rewrite R. reflexivity.
Qed.
Print Assumptions C73_integers_are_averaged.

(** [from t | median f]: of an odd number of integers the one in the middle, with
    as many on either side; of an even number half the sum of the two in the
    middle, as floats. *)
Theorem C73_integers_have_a_median : forall c x w d st t f, built c w d st -> S_Query.orders (cl_hash x) -> plain_name t -> plain_name f ->
  field_typed st t f TInt -> (exists i fs, declares w d t i fs) ->
  exists l, NoDup (map fst l) /\
    (forall id z, In (id, z) l <-> exists i fs, declares w d t i fs /\ id = compose_entity_id t i /\ has_integer fs f z) /\
    (l = [] -> query_text x (st_graph st) (L "from " ++ t ++ L " | median " ++ f) = None) /\
    (Nat.Odd (length l) -> exists m below above,
     query_text x (st_graph st) (L "from " ++ t ++ L " | median " ++ f) = Some (M_Query.QAgg (M_Query.RMedian m)) /\
     Permutation (map f_of_Z (map snd l)) (below ++ m :: above) /\ length below = length above /\
     Forall (fun a => f_le a m = true) below /\ Forall (fun a => f_le m a = true) above) /\
    (l <> [] -> Nat.Even (length l) -> exists lo hi below above,
     query_text x (st_graph st) (L "from " ++ t ++ L " | median " ++ f) = Some (M_Query.QAgg (M_Query.RMedian (f_div (f_add lo hi) (f_of_Z 2)))) /\
     Permutation (map f_of_Z (map snd l)) (below ++ lo :: hi :: above) /\ length below = length above /\
     Forall (fun a => f_le a lo = true) below /\ f_le lo hi = true /\ Forall (fun a => f_le hi a = true) above).
Proof.
  intros c x w d st t f B HO [IT NT] [IF NF] FT DE. destruct (declared_integers c w d st t f B FT) as (l & ND & IL & C). exists l. split; [exact ND|]. split; [exact IL|].
  set (es := filter (fun e => str_eqb (e_type e) t) (b_entities (st_build st))) in C.
  assert (Q : forall r, M_Query.exec_agg (cl_ext x) (M_Query.AMedian (M_Query.FReg f)) es = r ->
    query_text x (st_graph st) (L "from " ++ t ++ L " | median " ++ f) = match r with M_Graph.Ok a => Some (M_Query.QAgg a) | M_Graph.Err _ => None end).
  { intros r <-. unfold query_text. rewrite (read_median t f IT IF), NF. unfold M_Query.execute, L_Whole2.ask. cbn [M_Query.q_from M_Query.q_ops M_Query.q_agg].
    rewrite (select_declared c x w d st B HO t NT DE). fold es. cbn -[M_Query.exec_agg es]. destruct (M_Query.exec_agg _ _ es); reflexivity. }
  assert (LC : length (S_Query.column f es) = length l) by (rewrite C, !map_length; reflexivity).
  assert (NC : forallb S_Query.is_numeric (S_Query.column f es) = true) by (rewrite C; clear; induction l; auto).
  assert (MC : map (P_Agg.as_number (cl_ext x)) (S_Query.column f es) = map f_of_Z (map snd l)) by (rewrite C, map_map; reflexivity).
  assert (NN : Forall (fun v => f_is_nan (P_Agg.as_number (cl_ext x) v) = false) (S_Query.column f es)).
  { rewrite C. apply Forall_forall. intros v I. apply in_map_iff in I as (z & <- & _). apply L_Median.f_of_Z_not_nan. }
  split; [|split].
  - intros ->. exact (Q _ (proj2 (P_Agg.C17_empty_is_an_error (cl_ext x) f es C))).
  - intros O. rewrite <- LC in O. destruct (P_Agg.C17_odd_median_is_the_middle_value (cl_ext x) f es NC O NN) as (m & lo & hi & E & P & H). rewrite MC in P.
    exists m, lo, hi. split; [exact (Q _ E)|auto].
  - intros NE O. rewrite <- LC in O. assert (NE' : S_Query.column f es <> []) by (rewrite C; destruct l; [contradiction|discriminate]).
    destruct (P_Agg.C17_even_median_is_half_the_middle_sum (cl_ext x) f es NE' NC O NN) as (a & b & lo & hi & E & P & H). rewrite MC in P.
    exists a, b, lo, hi. split; [exact (Q _ E)|auto].
Qed.
Print Assumptions C73_integers_have_a_median.

(** In the case of C73: 41 and 7. *)
Example C73_sum_case : query_text x9 (st_graph st14) (L "from person | sum age") = Some (M_Query.QAgg (M_Query.RSum (M_Query.AVInt 48))) /\
  plain_name (L "age") /\ field_typed st14 (L "person") (L "age") TInt.
Proof. destruct C73_case as (_ & _ & _ & _ & A & _ & _ & F & _). split; [vm_compute; reflexivity|auto]. Qed.
Example C73_average_case : query_text x9 (st_graph st14) (L "from person | average age") = Some (M_Query.QAgg (M_Query.RAverage (f_of_Z 24))) /\
  query_text x9 (st_graph st14) (L "from person | average height") = None /\
  query_text x9 (st_graph st14) (L "from person | median age") = Some (M_Query.QAgg (M_Query.RMedian (f_of_Z 24))).
Proof. repeat split; vm_compute; reflexivity. Qed.
