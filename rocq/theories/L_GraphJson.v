(** Lemmas: the graph is read as it was written. *)
From Coq Require Import Lia.
From Verif Require Import M_Graph S_Graph L_Graph.
From Verif Require Import M_Json S_Json S_Date L_Str L_Date L_Num L_DslVal L_Json L_Json2 L_Json3 L_JsonFloat M_GraphJson M_Fs.
Close Scope Z_scope.

(** ** Date-times *)
Lemma frac_digits k : forall s acc r n, length s <= k -> no_digit r -> digits_val acc s = Some n -> frac_nanos k acc (s ++ r) = ((n * 10 ^ N.of_nat (k - length s))%N, r).
Proof.
  induction k as [|k IH]; intros s acc r n K ND V.
  - destruct s; [|cbn [length] in K; lia]. cbn in V. injection V as <-. cbn [app length]. destruct r as [|c r]; cbn [frac_nanos]; [reflexivity|]. cbn in ND. rewrite ND. reflexivity.
  - destruct s as [|c s].
    + cbn in V. injection V as <-. cbn [app length]. destruct r as [|x r]; cbn [frac_nanos]; [reflexivity|]. cbn in ND. rewrite ND. reflexivity.
    + cbn [app frac_nanos digits_val length] in *. destruct (is_digit c); [|discriminate]. rewrite (IH s _ r n) by (auto; lia). reflexivity.
Qed.
Lemma take_offset_text off : (exists m, - 1440 < m < 1440 /\ off = m * 60)%Z -> take_offset (offset_text off) = Some off.
Proof.
  intros (m & B & ->). unfold offset_text. destruct (Z.eqb_spec (m * 60) 0) as [E|E]; [rewrite E; reflexivity|].
  replace (Z.to_N ((Z.abs (m * 60) + 30) / 60)) with (Z.abs_N m).
  2:{ replace (Z.abs (m * 60) + 30)%Z with (30 + Z.abs m * 60)%Z by lia. rewrite Z.div_add by lia. change (30 / 60)%Z with 0%Z. lia. }
  set (a := Z.abs_N m). assert (A : (a < 1440)%N) by lia.
  assert (H1 : (a / 60 < 24)%N) by (apply N.div_lt_upper_bound; lia). assert (H2 : (a mod 60 < 60)%N) by (apply N.mod_lt; lia).
  pose proof (N.div_mod a 60 ltac:(lia)) as DM.
  assert (G : forall c sg, (c = "-"%char /\ sg = (-1)%Z) \/ (c = "+"%char /\ sg = 1%Z) -> take_offset (c :: padded 2 (a / 60) ++ ":"%char :: padded 2 (a mod 60)) = Some (sg * (Z.of_N a * 60))%Z).
  { intros c sg Hc. unfold take_offset. rewrite take_padded by (cbn; lia). cbn iota beta. rewrite <- (app_nil_r (padded 2 (a mod 60))). rewrite take_padded by (cbn; lia).
    rewrite (proj2 (N.ltb_lt (a mod 60) 60)) by lia. rewrite (proj2 (N.ltb_lt (a / 60) 24)) by lia. destruct Hc as [[-> ->] | [-> ->]]; change (Ascii.eqb "-" "+") with false || change (Ascii.eqb "+" "+") with true; try change (Ascii.eqb "-" "-") with true; cbn [andb]; cbn iota beta; f_equal; lia. }
  cbn [list_ascii_of_string app]. destruct (Z.ltb_spec (m * 60) 0); [rewrite <- app_comm_cons; cbn [app]|]; cbn [app]; [rewrite (G "-"%char (-1)%Z)|rewrite (G "+"%char 1%Z)]; auto; f_equal; lia.
Qed.
Lemma offset_no_digit off : no_digit (offset_text off) /\ match offset_text off with "."%char :: _ => False | _ => True end.
Proof. unfold offset_text. destruct (off =? 0)%Z; [split; [reflexivity|exact Logic.I]|]. destruct (off <? 0)%Z; cbn; auto. Qed.
Lemma fraction_read n r s6 : (n < 1000000000)%N -> no_digit r -> match r with "."%char :: _ => False | _ => True end -> s6 = fraction_text n ++ r ->
  match s6 with "."%char :: s' => frac_nanos 9 0 s' | _ => (0%N, s6) end = (n, r).
Proof.
  intros B ND NP ->. unfold fraction_text. destruct (N.eqb_spec n 0) as [->|NZ].
  - cbn [app]. destruct r as [|c r]; [reflexivity|]. destruct c as [[] [] [] [] [] [] [] []]; try reflexivity. destruct NP.
  - assert (G : forall k q, k <= 9 -> (q < 10 ^ N.of_nat k)%N -> (n = q * 10 ^ N.of_nat (9 - k))%N -> frac_nanos 9 0 (padded k q ++ r) = (n, r)).
    { intros k q K Q ->. pose proof (padded_length k q) as PL. rewrite (frac_digits 9 _ 0 r q); [|lia|exact ND|apply padded_val; exact Q]. rewrite PL. reflexivity. }
    destruct (N.eqb_spec (n mod 1000000) 0) as [M|M]; [|destruct (N.eqb_spec (n mod 1000) 0) as [M'|M']]; rewrite <- app_assoc; match goal with |- context [L "." ++ ?x] => change (L "." ++ x) with ("."%char :: x) end; cbn iota beta.
    + apply G; [lia| |]. { change (10 ^ N.of_nat 3)%N with 1000%N. apply N.div_lt_upper_bound; lia. } change (10 ^ N.of_nat (9 - 3))%N with 1000000%N. rewrite (N.div_mod n 1000000) at 1 by lia. lia.
    + apply G; [lia| |]. { change (10 ^ N.of_nat 6)%N with 1000000%N. apply N.div_lt_upper_bound; lia. } change (10 ^ N.of_nat (9 - 6))%N with 1000%N. rewrite (N.div_mod n 1000) at 1 by lia. lia.
    + apply G; [lia|change (10 ^ N.of_nat 9)%N with 1000000000%N; lia|]. change (10 ^ N.of_nat (9 - 9))%N with 1%N. lia.
Qed.
Lemma datetime_back d : storable_date d -> parse_rfc3339 (datetime_text d) = Some d.
Proof.
  intros (Y & Nn & O). unfold datetime_text. rewrite format_date_text. pose proof (days_of_civil_of_days (dt_date d)) as X.
  destruct (civil_of_days (dt_date d)) as [[y m] dd]. destruct X as [X V].
  assert (M : (0 <= m /\ 0 <= dd)%Z) by (unfold valid_civil in V; rewrite !andb_true_iff, !Z.leb_le in V; lia).
  unfold parse_rfc3339. rewrite take_date_text; rewrite ?Z2N.id by lia; auto; [|lia].
  match goal with |- context [L "T" ++ ?x] => change (L "T" ++ x) with ("T"%char :: x) end. cbn iota beta.
  change (Ascii.eqb "T" "T" || Ascii.eqb "T" "t" || Ascii.eqb "T" " ")%bool with true. cbn iota.
  assert (S : (0 <= dt_secs d < 86400)%Z) by (unfold dt_secs; apply Z.mod_pos_bound; lia).
  assert (H1 : (0 <= dt_secs d / 3600 < 24)%Z) by (split; [apply Z.div_pos; lia|apply Z.div_lt_upper_bound; lia]).
  assert (H2 : (0 <= dt_secs d / 60 mod 60 < 60)%Z) by (apply Z.mod_pos_bound; lia). assert (H3 : (0 <= dt_secs d mod 60 < 60)%Z) by (apply Z.mod_pos_bound; lia).
  unfold clock_text. rewrite <- !app_assoc. rewrite take_padded by (cbn; lia). match goal with |- context [L ":" ++ ?x] => change (L ":" ++ x) with (":"%char :: x) end. rewrite expect_here.
  rewrite take_padded by (cbn; lia). match goal with |- context [L ":" ++ ?x] => change (L ":" ++ x) with (":"%char :: x) end. rewrite expect_here. rewrite take_padded by (cbn; lia).
  destruct (offset_no_digit (dt_off d)) as [ND NP]. rewrite (fraction_read (Z.to_N (dt_nanos d)) (offset_text (dt_off d)) _) by (auto; lia). rewrite (take_offset_text _ O).
  replace ((Z.to_N (dt_secs d / 3600) <? 24) && (Z.to_N (dt_secs d / 60 mod 60) <? 60) && (Z.to_N (dt_secs d mod 60) <? 60))%N with true
    by (symmetry; rewrite !andb_true_iff; repeat split; apply N.ltb_lt; lia).
  f_equal. rewrite X. destruct d as [loc nn off]. cbn [dt_nanos dt_off] in *. rewrite !Z2N.id by lia. f_equal. unfold dt_date, dt_secs in *. cbn [dt_local] in *.
  rewrite (Z.div_mod loc 86400) at 5 by lia. set (s := (loc mod 86400)%Z) in *. set (q := (loc / 86400)%Z) in *.
  pose proof (Z.div_mod s 60 ltac:(lia)) as E1. pose proof (Z.div_mod (s / 60) 60 ltac:(lia)) as E2. rewrite Z.div_div in E2 by lia. change (60 * 60)%Z with 3600%Z in E2. lia.
Qed.

(** ** Values *)
Lemma each_cons {A B} (f : A -> option B) x l : each_some f (x :: l) = match f x, each_some f l with Some y, Some ys => Some (y :: ys) | _, _ => None end.
Proof. reflexivity. Qed.
Lemma each_map {A B} (f : A -> option B) (h : B -> A) l : (forall x, In x l -> f (h x) = Some x) -> each_some f (map h l) = Some l.
Proof. induction l as [|x l IH]; intros H; [reflexivity|]. cbn [map]. rewrite each_cons, (H x (or_introl eq_refl)), IH; [reflexivity|]. intros y i. apply H. right. exact i. Qed.
Lemma storable_ind' env (P : value -> Prop) : (forall b, P (VBool b)) -> (forall s, is_text s = true -> P (VStr s)) -> (forall z, in_i64 z = true -> P (VInt z)) ->
  (forall f, f_is_finite f = true -> short_decimal (je_float env f) f -> P (VFloat f)) ->
  (forall a k, valid_dec a -> je_known env k = true -> is_text k = true -> P (VCur a k)) -> (forall id, is_text id = true -> P (VRef (REntity id))) ->
  (forall id f, is_text id = true -> is_text f = true -> P (VRef (RField id f))) -> (forall vs, Forall (storable env) vs -> Forall P vs -> P (VList vs)) ->
  (forall d, storable_date d -> P (VDate d)) -> (forall p, is_text p = true -> P (VPath p)) -> (forall s, is_text s = true -> P (VEnum s)) -> forall v, storable env v -> P v.
Proof.
  intros H1 H2 H3 H4 H5 H6 H7 H8 H9 H10 H11. fix IH 2. intros v S. destruct S; auto. apply H8; auto.
  clear - IH H. induction H; constructor; auto.
Qed.
Lemma dec_back env v : storable env v -> dec_value env (enc_value v) = Some v.
Proof.
  apply (storable_ind' env (fun v => dec_value env (enc_value v) = Some v)); clear v; try reflexivity.
  - intros z H. cbn. rewrite H. reflexivity.
  - intros a k H K _. cbn [enc_value tagged dec_value]. change (str_eqb (L "Currency") (L "Boolean")) with false. cbn. rewrite dec_survives by auto. rewrite K. reflexivity.
  - intros vs _ H. cbn [enc_value tagged dec_value]. change (option_map VList (each_some (dec_value env) (map enc_value vs)) = Some (VList vs)). rewrite each_map; [reflexivity|]. rewrite Forall_forall in H. exact H.
  - intros d H. cbn [enc_value tagged dec_value]. change (option_map VDate (parse_rfc3339 (datetime_text d)) = Some (VDate d)). rewrite datetime_back by auto. reflexivity.
Qed.
Lemma Forall2_same {A} (R : A -> A -> Prop) l : (forall x, In x l -> R x x) -> Forall2 R l l.
Proof. induction l as [|x l IH]; intros H; constructor; [apply H; left; reflexivity|]. apply IH. intros y i. apply H. right. exact i. Qed.
Section Back.
Variable env : json_env.
Definition kept (j : jv) : Prop := back (je_float env) number_of j j.
Lemma kept_arr l : (forall x, In x l -> kept x) -> kept (JvArr l).
Proof. intros H. constructor. apply Forall2_same. exact H. Qed.
Lemma kept_obj l : (forall kv, In kv l -> kept (snd kv)) -> kept (JvObj l).
Proof. intros H. constructor. apply Forall2_same. intros x i. split; [reflexivity|apply H; exact i]. Qed.
Lemma kept_tagged t v : kept v -> kept (tagged t v).
Proof. intros H. apply kept_obj. intros kv [<-|[]]. exact H. Qed.
Lemma kept_int z : in_json z -> kept (JvInt z).
Proof. intros H. constructor. intros r S. apply read_int; auto. Qed.
Lemma kept_str s : kept (JvStr s). Proof. constructor. Qed.
Lemma kept_value v : storable env v -> kept (enc_value v).
Proof.
  apply (storable_ind' env (fun v => kept (enc_value v))); clear v; intros; cbn [enc_value enc_ref]; repeat apply kept_tagged; try apply kept_str.
  - constructor.
  - apply kept_int. unfold in_i64, i64_min, i64_max in H. apply andb_true_iff in H as [A B]. apply Z.leb_le in A, B. unfold in_json. lia.
  - apply back_float; [exact H|eapply short_text; eauto|]. intros r S. apply read_short; auto.
  - apply kept_obj. intros kv [<-|[<-|[]]]; apply kept_str.
  - apply kept_arr. intros x [<-|[<-|[]]]; apply kept_str.
  - apply kept_arr. intros x I. apply in_map_iff in I as (v & <- & I). rewrite Forall_forall in H0. apply H0. exact I.
Qed.
Lemma kept_index n : (N.of_nat n < 4294967296)%N -> kept (enc_index n).
Proof. intros H. apply kept_int. unfold in_json. lia. Qed.
Lemma kept_entity e : storable_entity env e -> kept (enc_entity e).
Proof.
  intros (_ & _ & F). apply kept_obj. intros kv [<-|[<-|[<-|[]]]]; try apply kept_str. apply kept_arr. intros x I. apply in_map_iff in I as (fv & <- & I).
  rewrite Forall_forall in F. destruct (F _ I) as (_ & S & _). apply kept_arr. intros y [<-|[<-|[]]]; [apply kept_str|]. apply kept_value. exact S.
Qed.
Lemma kept_rel r : kept (enc_rel r).
Proof. destruct r; apply kept_tagged, kept_obj; intros kv; [intros [<-|[]]|intros [<-|[<-|[]]]]; apply kept_str. Qed.
End Back.

(** ** Graphs *)
(** Every index names a node. *)
Definition in_range (g : graph) : Prop :=
  (forall a b r, In (a, b, r) (g_edges g) -> a < length (g_nodes g) /\ b < length (g_nodes g)) /\
  (forall k n, In (k, n) (g_map g) -> n < length (g_nodes g)) /\ (forall t l n, In (t, l) (g_types g) -> In n l -> n < length (g_nodes g)).
Definition one_each (g : graph) : Prop := NoDup (map fst (g_map g)) /\ NoDup (map fst (g_types g)).
Lemma index_back n : (N.of_nat n < 4294967296)%N -> dec_index (enc_index n) = Some n.
Proof. intros H. unfold enc_index, dec_index. rewrite (proj2 (Z.leb_le _ _)), (proj2 (Z.ltb_lt _ _)) by lia. cbn [andb]. rewrite Nat2Z.id. reflexivity. Qed.
Lemma entity_back env e : storable_entity env e -> dec_entity env (enc_entity e) = Some e.
Proof.
  intros (_ & _ & F). unfold enc_entity, dec_entity. 
  change (option_map (fun fs => {| e_id := e_id e; e_type := e_type e; e_fields := fs |}) (each_some (dec_field env) (map (fun fv => JvArr [JvStr (fst fv); enc_value (snd fv)]) (e_fields e))) = Some e).
  rewrite each_map; [destruct e; reflexivity|]. intros [f v] I. rewrite Forall_forall in F. destruct (F _ I) as (_ & S & _). cbn [fst snd] in *. cbn [dec_field]. rewrite dec_back by auto. reflexivity.
Qed.
Lemma edge_back e : (N.of_nat (fst (fst e)) < 4294967296)%N -> (N.of_nat (snd (fst e)) < 4294967296)%N -> dec_edge (enc_edge e) = Some e.
Proof. destruct e as [[a b] r]. cbn [fst snd]. intros A B. cbn [enc_edge dec_edge]. rewrite !index_back by auto. destruct r; reflexivity. Qed.
Lemma assoc_set_new {A} k (a : A) l : ~ In k (map fst l) -> assoc_set k a l = l ++ [(k, a)].
Proof. induction l as [|[k' a'] l IH]; cbn [assoc_set map fst app]; intros N; [reflexivity|]. destruct (str_eqb_spec k' k) as [->|]; [destruct N; left; reflexivity|]. rewrite IH; [reflexivity|]. intros i. apply N. right. exact i. Qed.
Lemma fill_map {A} (l : list (str * A)) : forall m, NoDup (map fst (m ++ l)) -> fold_left (fun m kv => assoc_set (fst kv) (snd kv) m) l m = m ++ l.
Proof.
  induction l as [|[k a] l IH]; intros m N; cbn [fold_left]; [rewrite app_nil_r; reflexivity|]. cbn [fst snd]. rewrite assoc_set_new.
  - rewrite IH; rewrite <- app_assoc; [reflexivity|exact N].
  - rewrite map_app in N. cbn [map fst] in N. apply NoDup_remove_2 in N. intros i. apply N. apply in_or_app. left. exact i.
Qed.
Lemma map_back {A} (f : jv -> option A) (h : A -> jv) l : (forall k a, In (k, a) l -> f (h a) = Some a) -> NoDup (map fst l) -> dec_map f (JvObj (map (fun ka => (fst ka, h (snd ka))) l)) = Some l.
Proof.
  intros H N. cbn [dec_map]. rewrite (each_map (fun kv => option_map (pair (fst kv)) (f (snd kv))) (fun ka => (fst ka, h (snd ka)))).
  - cbn [option_map]. rewrite fill_map; [reflexivity|exact N].
  - intros [k a] I. cbn [fst snd]. rewrite (H k a I). reflexivity.
Qed.
Section Graph.
Variables (env : json_env) (g : graph).
Hypotheses (W : walks env) (C : countable g) (E : Forall (storable_entity env) (g_nodes g)) (R : in_range g) (O : one_each g).
Definition read_as : graph := {| g_nodes := g_nodes g; g_map := je_ids env (g_map g); g_types := je_kinds env (g_types g); g_edges := g_edges g |}.
Lemma node_index n : n < length (g_nodes g) -> (N.of_nat n < 4294967296)%N.
Proof. destruct C as [A _]. lia. Qed.
Lemma graph_back : dec_graph env (enc_graph env g) = Some read_as.
Proof.
  destruct W as [WI WK]. destruct R as (RE & RM & RT). destruct O as [OM OT]. destruct C as [CN CE]. rewrite Forall_forall in E.
  assert (M : dec_map dec_index (JvObj (map (fun kn => (fst kn, enc_index (snd kn))) (je_ids env (g_map g)))) = Some (je_ids env (g_map g))).
  { apply map_back. - intros k n I. apply index_back, node_index. apply (RM k). apply (Permutation_in _ (WI _)). exact I.
    - apply (Permutation_NoDup (l := map fst (g_map g))); [|exact OM]. apply Permutation_map. symmetry. apply WI. }
  assert (T : dec_map dec_indices (JvObj (map (fun kl => (fst kl, JvArr (map enc_index (snd kl)))) (je_kinds env (g_types g)))) = Some (je_kinds env (g_types g))).
  { apply (map_back dec_indices (fun l => JvArr (map enc_index l))).
    - intros k l I. cbn [dec_indices]. apply each_map. intros n J. apply index_back, node_index. apply (RT k l); [|exact J]. apply (Permutation_in _ (WK _)). exact I.
    - apply (Permutation_NoDup (l := map fst (g_types g))); [|exact OT]. apply Permutation_map. symmetry. apply WK. }
  assert (P : dec_petgraph env (JvObj [(L "nodes", JvArr (map enc_entity (g_nodes g))); (L "node_holes", JvArr []); (L "edge_property", JvStr (L "directed")); (L "edges", JvArr (map enc_edge (g_edges g)))])
              = Some (g_nodes g, g_edges g)).
  { transitivity (match each_some (dec_entity env) (map enc_entity (g_nodes g)), each_some dec_edge (map enc_edge (g_edges g)) with
          | Some ns, Some es => if str_eqb (L "directed") (L "directed") && (N.of_nat (length ns) <? u32_max)%N && (N.of_nat (length es) <? u32_max)%N
                 && forallb (fun e => (fst (fst e) <? length ns) && (snd (fst e) <? length ns)) es then Some (ns, es) else None
          | _, _ => None end); [reflexivity|].
    rewrite each_map by (intros e I; apply entity_back, E; exact I). rewrite each_map.
    - rewrite str_eqb_refl. unfold u32_max. rewrite (proj2 (N.ltb_lt _ _) CN), (proj2 (N.ltb_lt _ _) CE). cbn [andb].
      replace (forallb _ (g_edges g)) with true; [reflexivity|]. symmetry. apply forallb_forall. intros [[a b] r] I. destruct (RE a b r I). cbn [fst snd]. apply andb_true_iff. split; apply Nat.ltb_lt; auto.
    - intros [[a b] r] I. destruct (RE a b r I). apply edge_back; cbn [fst snd]; apply node_index; auto. }
  unfold enc_graph, dec_graph. cbn [member filter fst str_eqb].
  transitivity (match dec_petgraph env (JvObj [(L "nodes", JvArr (map enc_entity (g_nodes g))); (L "node_holes", JvArr []); (L "edge_property", JvStr (L "directed")); (L "edges", JvArr (map enc_edge (g_edges g)))]),
      dec_map dec_index (JvObj (map (fun kn => (fst kn, enc_index (snd kn))) (je_ids env (g_map g)))), dec_map dec_indices (JvObj (map (fun kl => (fst kl, JvArr (map enc_index (snd kl)))) (je_kinds env (g_types g)))) with
      | Some (ns, es), Some m, Some t => Some {| g_nodes := ns; g_map := m; g_types := t; g_edges := es |} | _, _, _ => None end); [reflexivity|].
  rewrite M, T, P. reflexivity.
Qed.
Lemma graph_kept : kept env (enc_graph env g).
Proof.
  destruct W as [WI WK]. destruct R as (RE & RM & RT). rewrite Forall_forall in E. unfold enc_graph. apply kept_obj. intros kv [<-|[<-|[<-|[]]]]; cbn [snd].
  - apply kept_obj. intros kv [<-|[<-|[<-|[<-|[]]]]]; cbn [snd]; apply kept_str || apply kept_arr; intros x I.
    + apply in_map_iff in I as (e & <- & I). apply kept_entity, E, I.
    + destruct I.
    + apply in_map_iff in I as ([[a b] r] & <- & I). destruct (RE a b r I). apply kept_arr. intros y [<-|[<-|[<-|[]]]]; [apply kept_index, node_index; auto|apply kept_index, node_index; auto|apply kept_rel].
  - apply kept_obj. intros kv I. apply in_map_iff in I as ([k n] & <- & I). cbn [snd]. apply kept_index, node_index. apply (RM k). apply (Permutation_in _ (WI _)). exact I.
  - apply kept_obj. intros kv I. apply in_map_iff in I as ([k l] & <- & I). cbn [snd]. apply kept_arr. intros x J. apply in_map_iff in J as (n & <- & J). apply kept_index, node_index. apply (RT k l); [|exact J]. apply (Permutation_in _ (WK _)). exact I.
Qed.
Lemma value_depth v : depth (enc_value v) = levels v.
Proof.
  induction v using value_ind'; try reflexivity.
  - destruct r; reflexivity.
  - cbn [enc_value tagged depth map snd fold_right levels]. rewrite Nat.max_0_r, map_map. cbn [Nat.add]. do 3 f_equal. apply map_ext_in. intros v I. rewrite Forall_forall in H. apply H. exact I.
Qed.
Lemma graph_depth : depth (enc_graph env g) <= 127.
Proof.
  rewrite Forall_forall in E. unfold enc_graph. cbn [depth map snd fold_right].
  assert (A : fold_right Nat.max 0 (map depth (map enc_entity (g_nodes g))) <= 124).
  { apply max_le. intros m I. rewrite map_map in I. apply in_map_iff in I as (e & <- & I). destruct (E _ I) as (_ & _ & F). rewrite Forall_forall in F. unfold enc_entity. cbn [depth map snd fold_right].
    assert (X : fold_right Nat.max 0 (map depth (map (fun fv => JvArr [JvStr (fst fv); enc_value (snd fv)]) (e_fields e))) <= 122); [|lia].
    apply max_le. intros m J. rewrite map_map in J. apply in_map_iff in J as (fv & <- & J). destruct (F _ J) as (_ & _ & B). cbn [depth map fold_right]. rewrite value_depth. lia. }
  assert (B : fold_right Nat.max 0 (map depth (map enc_edge (g_edges g))) <= 3).
  { apply max_le. intros m I. rewrite map_map in I. apply in_map_iff in I as ([[a b] r] & <- & I). destruct r; cbn; lia. }
  assert (D : fold_right Nat.max 0 (map (fun kv => depth (snd kv)) (map (fun kn => (fst kn, enc_index (snd kn))) (je_ids env (g_map g)))) <= 1).
  { apply max_le. intros m I. rewrite map_map in I. apply in_map_iff in I as (kn & <- & I). cbn. lia. }
  assert (F : fold_right Nat.max 0 (map (fun kv => depth (snd kv)) (map (fun kl => (fst kl, JvArr (map enc_index (snd kl)))) (je_kinds env (g_types g)))) <= 1).
  { apply max_le. intros m I. rewrite map_map in I. apply in_map_iff in I as (kl & <- & I). cbn [snd depth]. assert (fold_right Nat.max 0 (map depth (map enc_index (snd kl))) <= 0); [|lia].
    apply max_le. intros n J. rewrite map_map in J. apply in_map_iff in J as (x & <- & J). cbn. lia. }
  change str with (list ascii) in *. change entity_id with (list ascii) in *. change entity_type with (list ascii) in *. lia.
Qed.
Lemma graph_read : read_graph env (graph_text env g) = Some read_as.
Proof.
  unfold read_graph, read_json, graph_text. pose proof (read_back (je_float env) number_of _ _ max_depth [] graph_kept graph_depth Logic.I) as H. rewrite app_nil_r in H.
  match type of H with ?a = _ => remember a as o eqn:Q end. clear Q. rewrite H. cbn [skip_ws]. exact graph_back.
Qed.
End Graph.
