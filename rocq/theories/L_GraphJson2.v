(** Lemmas: graphs that were built, graphs that answer alike, and the text of a
    graph as text. *)
From Coq Require Import Lia.
From Verif Require Import M_Graph S_Graph L_Graph M_Query S_Query.
From Verif Require Import M_Json S_Json L_Str L_Num L_DslVal L_History L_Json L_Json2 L_Json3 L_JsonFloat M_GraphJson L_GraphJson L_Save M_Fs.
Close Scope Z_scope.

(** ** Built graphs *)
Lemma mk_map_range es : forall n k m, In (k, m) (mk_map n es) -> m < n + length es.
Proof. induction es as [|e es IH]; cbn [mk_map length]; intros n k m I; [destruct I|]. destruct I as [[= _ <-]|I]; [lia|]. apply IH in I. lia. Qed.
Lemma mk_map_keys es : forall n, map fst (mk_map n es) = map e_id es.
Proof. induction es as [|e es IH]; cbn [mk_map map fst]; intros n; [reflexivity|]. f_equal. apply IH. Qed.
Lemma positions_range t es : forall n m, In m (positions t n es) -> m < n + length es.
Proof.
  induction es as [|e es IH]; cbn [positions length]; intros n m I; [destruct I|]. destruct (str_eqb (e_type e) t); [destruct I as [<-|I]; [lia|]|]; apply IH in I; lia.
Qed.
Lemma assoc_one {A} (l : list (str * A)) k a : NoDup (map fst l) -> In (k, a) l -> assoc k l = Some a.
Proof.
  induction l as [|[k' a'] l IH]; cbn [assoc map fst]; intros N I; [destruct I|]. inversion N as [|? ? N1 N2]; subst. destruct I as [[= -> ->]|I]; [rewrite str_eqb_refl; reflexivity|].
  destruct (str_eqb_spec k' k) as [->|]; [|auto]. destruct N1. change k with (fst (k, a)). apply in_map. exact I.
Qed.
Lemma assoc_absent {A} (l : list (str * A)) k : ~ In k (map fst l) -> assoc k l = None.
Proof. induction l as [|[k' a'] l IH]; cbn [assoc map fst]; intros N; [reflexivity|]. destruct (str_eqb_spec k' k) as [->|]; [destruct N; left; reflexivity|]. apply IH. intros i. apply N. right. exact i. Qed.
Lemma assoc_perm {A} (l l' : list (str * A)) k : Permutation l l' -> NoDup (map fst l) -> assoc k l' = assoc k l.
Proof.
  intros P N. assert (N' : NoDup (map fst l')) by (eapply Permutation_NoDup; [apply Permutation_map; exact P|exact N]).
  destruct (in_dec (list_eq_dec Ascii.ascii_dec) k (map fst l)) as [I|I].
  - apply in_map_iff in I as ([k0 a] & <- & I). cbn [fst]. rewrite (assoc_one l k0 a N I). apply assoc_one; auto. apply (Permutation_in _ P). exact I.
  - rewrite (assoc_absent l k I). apply assoc_absent. intros i. apply I. apply (Permutation_in _ (Permutation_map fst (Permutation_sym P))). exact i.
Qed.
Lemma inv_range g es : Inv g es -> in_range g.
Proof.
  intros [N M D [TN T] E]. split; [exact E|]. split.
  - intros k n I. rewrite M in I. apply mk_map_range in I. rewrite N. exact I.
  - intros t l n I J. pose proof (assoc_one _ _ _ TN I) as A. rewrite T in A. destruct (positions t 0 es) as [|p ps] eqn:P; [discriminate|]. injection A as <-. rewrite <- P in J. apply positions_range in J. rewrite N. exact J.
Qed.
Lemma inv_one_each g es : Inv g es -> one_each g.
Proof. intros [N M D [TN T] E]. split; [|exact TN]. rewrite M, mk_map_keys. exact D. Qed.

(** ** The same answers *)
Lemma same_read env g : walks env -> same_graph g (read_as env g).
Proof. intros [A B]. repeat split; cbn; auto. Qed.
Section Same.
Variables g g' : graph.
Hypotheses (O : one_each g) (S : same_graph g g').
Lemma same_map id : assoc id (g_map g') = assoc id (g_map g).
Proof. destruct S as (_ & _ & P & _). apply assoc_perm; [symmetry; exact P|apply O]. Qed.
Lemma same_types t : assoc t (g_types g') = assoc t (g_types g).
Proof. destruct S as (_ & _ & _ & P). apply assoc_perm; [symmetry; exact P|apply O]. Qed.
Lemma same_entity id : get_entity g' id = get_entity g id.
Proof. unfold get_entity. rewrite same_map. destruct S as (-> & _). reflexivity. Qed.
Lemma same_list t : list_by_type g' t = list_by_type g t.
Proof. unfold list_by_type. rewrite same_types. destruct S as (-> & _). reflexivity. Qed.
Lemma same_related id d : get_related g' id d = get_related g id d.
Proof. unfold get_related. rewrite same_map. unfold edge_targets, edge_sources. destruct S as (-> & -> & _). reflexivity. Qed.
Lemma same_search n : forall id f vis, search_field_reference g' id f n vis = search_field_reference g id f n vis.
Proof.
  induction n as [|n IH]; intros id f vis; [reflexivity|]. cbn [search_field_reference]. rewrite same_entity, same_map.
  destruct (existsb _ _); [reflexivity|]. destruct (get_entity g id) as [e|]; [|reflexivity]. destruct (get_field e f) as [[| | | | |[|tid tf]| | | |]|]; try reflexivity.
  rewrite same_map. destruct (assoc id (g_map g)); [|reflexivity]. destruct (assoc tid (g_map g)); [|reflexivity].
  unfold has_field_edge. destruct S as (_ & -> & _). destruct (existsb _ _); [apply IH|reflexivity].
Qed.
Lemma same_keys : Permutation (type_keys g') (type_keys g).
Proof. unfold type_keys. apply Permutation_map. apply S. Qed.
Lemma same_in t : str_in t (type_keys g') = str_in t (type_keys g).
Proof. unfold str_in. apply eq_true_iff_eq. rewrite !existsb_exists. split; intros (x & I & E); exists x; (split; [|exact E]); [apply (Permutation_in _ same_keys)|apply (Permutation_in _ (Permutation_sym same_keys))]; exact I. Qed.
(** An order of the old keys for an order of the new ones. *)
Definition other_order (ho : hash_order) : hash_order := fun site l =>
  match site with
  | [0] => if list_eq_dec (list_eq_dec Ascii.ascii_dec) l (type_keys g) then ho [0] (type_keys g') else ho [0] l
  | _ => ho site l
  end.
Lemma other_orders ho : orders ho -> orders (other_order ho).
Proof.
  intros H site l. unfold other_order. destruct site as [|[|n] [|m site]]; try apply H. destruct (list_eq_dec (list_eq_dec Ascii.ascii_dec) l (type_keys g)) as [->|]; [|apply H]. eapply Permutation_trans; [apply H|apply same_keys].
Qed.
Lemma other_first ho : other_order ho [0] (type_keys g) = ho [0] (type_keys g').
Proof. unfold other_order. destruct (list_eq_dec (list_eq_dec Ascii.ascii_dec) (type_keys g) (type_keys g)); [reflexivity|congruence]. Qed.
Lemma other_rest ho n m site l : other_order ho (n :: m :: site) l = ho (n :: m :: site) l.
Proof. destruct n; reflexivity. Qed.
Lemma same_bfs ho m site n : forall all cur, bfs g' ho (m :: site) n all cur = bfs g (other_order ho) (m :: site) n all cur.
Proof.
  induction n as [|n IH]; intros all cur; [reflexivity|]. cbn [bfs]. rewrite other_rest.
  assert (F : flat_map (related_ids g') (ho (Datatypes.S n :: m :: site) cur) = flat_map (related_ids g) (ho (Datatypes.S n :: m :: site) cur)) by (apply flat_map_ext; intros id; unfold related_ids; rewrite same_related; reflexivity).
  rewrite F. destruct (set_of _); [reflexivity|apply IH].
Qed.
Lemma filter_opt_ext {A B} (f h : A -> option B) l : (forall x, f x = h x) -> filter_opt f l = filter_opt h l.
Proof. intros E. induction l as [|x l IH]; [reflexivity|]. cbn [filter_opt]. rewrite E, IH. reflexivity. Qed.
Lemma same_related_step ho n d t es : related_step g' ho [n] d t es = related_step g (other_order ho) [n] d t es.
Proof.
  unfold related_step. destruct (Nat.min d max_degrees); [reflexivity|]. rewrite other_rest, same_bfs. rewrite (filter_opt_ext (get_entity g') (get_entity g)) by apply same_entity. reflexivity.
Qed.
Lemma same_ops x ho ops : forall n es, exec_ops x g' ho n ops es = exec_ops x g (other_order ho) n ops es.
Proof.
  induction ops as [|o ops IH]; intros n es; [reflexivity|]. cbn [exec_ops]. assert (E : exec_op x g' ho n o es = exec_op x g (other_order ho) n o es) by (destruct o; try reflexivity; cbn [exec_op]; rewrite same_related_step; reflexivity).
  rewrite E. destruct (exec_op x g (other_order ho) n o es) as [l|e]; try reflexivity. apply IH.
Qed.
Lemma same_execute x ho q : execute x g' ho q = execute x g (other_order ho) q.
Proof.
  unfold execute. assert (E : select_from g' ho (q_from q) = select_from g (other_order ho) (q_from q)).
  { unfold select_from. destruct (q_from q) as [t|]; rewrite other_first; [rewrite same_in, same_list; reflexivity|]. f_equal. apply flat_map_ext. apply same_list. }
  rewrite E. destruct (select_from g (other_order ho) (q_from q)) as [l|e]; try reflexivity. cbn [bind]. rewrite same_ops. reflexivity.
Qed.
End Same.

(** ** Text *)
Definition plain (s : str) : Prop := forallb (fun c => (code c <? 128)%N) s = true.
Lemma plain_go s : plain s -> forall r, utf8_go 0 (s ++ r) = utf8_go 0 r.
Proof. unfold plain. induction s as [|c s IH]; cbn [forallb app]; intros H r; [reflexivity|]. apply andb_true_iff in H as [C H]. cbn [utf8_go]. rewrite C. apply IH. exact H. Qed.
Lemma text_go s : is_text s = true -> forall r, utf8_go 0 (s ++ r) = utf8_go 0 r.
Proof.
  unfold is_text. assert (G : forall s n, utf8_go n s = true -> forall r, utf8_go n (s ++ r) = utf8_go 0 r).
  { clear. induction s as [|c s IH]; intros n H r.
    - destruct n; [reflexivity|discriminate].
    - cbn [app utf8_go] in *. destruct n as [|n].
      + destruct (code c <? 128)%N; [auto|]. destruct (code c <? 194)%N; [discriminate|]. destruct (code c <? 224)%N; [auto|]. destruct (code c <? 240)%N; [auto|]. destruct (code c <? 245)%N; [auto|discriminate].
      + apply andb_true_iff in H as [A B]. rewrite A. cbn [andb]. auto. }
  intros H. exact (G s 0 H).
Qed.
Lemma escape_high c : (code c <? 128)%N = false -> escape c = [c].
Proof. destruct c as [[] [] [] [] [] [] [] []]; cbn; congruence || reflexivity. Qed.
Lemma escape_plain c : (code c <? 128)%N = true -> plain (escape c) /\ exists x r, escape c = x :: r /\ (code x <? 128)%N = true.
Proof. intros H. split; destruct c as [[] [] [] [] [] [] [] []]; try discriminate H; try reflexivity; eexists; eexists; split; reflexivity. Qed.
Lemma cont_high c : is_cont c = true -> (code c <? 128)%N = false.
Proof. destruct c as [[] [] [] [] [] [] [] []]; cbn; congruence || reflexivity. Qed.
Lemma escaped_text s : forall n, utf8_go n (concat (map escape s)) = utf8_go n s.
Proof.
  induction s as [|c s IH]; intros n; [reflexivity|]. cbn [map concat]. destruct (code c <? 128)%N eqn:C.
  - destruct (escape_plain c C) as (P & x & r & E & X). destruct n as [|n].
    + rewrite (plain_go _ P). cbn [utf8_go]. rewrite C. apply IH.
    + rewrite E. cbn [app utf8_go]. destruct (is_cont x) eqn:K; [apply cont_high in K; congruence|]. destruct (is_cont c) eqn:K'; [apply cont_high in K'; congruence|]. reflexivity.
  - rewrite (escape_high c C). cbn [app utf8_go]. rewrite ?IH. destruct n; [reflexivity|rewrite IH; reflexivity].
Qed.
Lemma quote_text s : is_text s = true -> is_text (quote s) = true.
Proof.
  intros H. unfold quote. unfold is_text. rewrite (plain_go [QT]) by reflexivity. rewrite (text_go (concat (map escape s))) by (unfold is_text; rewrite escaped_text; exact H). reflexivity.
Qed.
Lemma app_text a b : is_text a = true -> is_text b = true -> is_text (a ++ b) = true.
Proof. intros A B. unfold is_text. rewrite (text_go a A). exact B. Qed.
Lemma plain_text s : plain s -> is_text s = true.
Proof. intros P. unfold is_text. rewrite <- (app_nil_r s), (plain_go s P). reflexivity. Qed.
Lemma digits_plain s : forallb is_digit s = true -> plain s.
Proof.
  intros H. unfold plain. apply forallb_forall. intros c I. rewrite forallb_forall in H. specialize (H c I). destruct c as [[] [] [] [] [] [] [] []]; cbn in *; congruence || reflexivity.
Qed.
Lemma plain_app a b : plain a -> plain b -> plain (a ++ b).
Proof. unfold plain. intros A B. rewrite forallb_app, A, B. reflexivity. Qed.
Lemma number_plain t : number_text t -> plain t.
Proof.
  intros [sign ints frac ex S [[_ W] _] F X]. repeat apply plain_app.
  - destruct S as [-> | ->]; reflexivity.
  - apply digits_plain. exact W.
  - destruct F as [-> | (ds & [_ D] & ->)]; [reflexivity|]. apply (plain_app (L ".")); [reflexivity|apply digits_plain; exact D].
  - destruct X as [-> | (e & s & ds & E & S' & [_ D] & ->)]; [reflexivity|]. apply (plain_app [e]); [destruct E as [-> | ->]; reflexivity|]. apply plain_app; [destruct S' as [-> | [-> | ->]]; reflexivity|apply digits_plain; exact D].
Qed.
Inductive texty (wf : f64 -> str) : jv -> Prop :=
| tx_null : texty wf JvNull
| tx_bool b : texty wf (JvBool b)
| tx_int z : texty wf (JvInt z)
| tx_float f : (f_is_finite f = true -> is_text (wf f) = true) -> texty wf (JvFloat f)
| tx_str s : is_text s = true -> texty wf (JvStr s)
| tx_arr l : Forall (texty wf) l -> texty wf (JvArr l)
| tx_obj l : Forall (fun kv => is_text (fst kv) = true /\ texty wf (snd kv)) l -> texty wf (JvObj l).
Lemma join_text sep l : is_text sep = true -> Forall (fun s => is_text s = true) l -> is_text (join sep l) = true.
Proof. intros S F. induction F as [|x l X F IH]; [reflexivity|]. destruct l as [|y l]; [exact X|]. cbn [join] in *. apply app_text; [exact X|]. apply app_text; [exact S|exact IH]. Qed.
Lemma show_text wf j : texty wf j -> is_text (show_jv wf j) = true.
Proof.
  apply (jv_ind' (fun j => texty wf j -> is_text (show_jv wf j) = true)); clear j.
  - reflexivity.
  - intros [] _; reflexivity.
  - intros z _. apply plain_text, number_plain, show_Z_number.
  - intros f T. inversion T; subst. cbn [show_jv]. destruct (f_is_finite f); [auto|reflexivity].
  - intros s T. inversion T; subst. apply quote_text. assumption.
  - intros l IH T. inversion T as [| | | | |? F|]; subst. cbn [show_jv]. apply (app_text (L "[")); [reflexivity|]. apply app_text; [|reflexivity]. apply join_text; [reflexivity|].
    rewrite Forall_forall in *. intros s I. apply in_map_iff in I as (x & <- & I). apply IH; auto.
  - intros l IH T. inversion T as [| | | | | |? F]; subst. cbn [show_jv]. apply (app_text (L "{")); [reflexivity|]. apply app_text; [|reflexivity]. apply join_text; [reflexivity|].
    rewrite Forall_forall in *. intros s I. apply in_map_iff in I as ([k x] & <- & I). destruct (F _ I) as [A B]. cbn [fst snd] in *. apply app_text; [apply quote_text; exact A|]. apply (app_text (L ":")); [reflexivity|]. apply (IH (k, x)); auto.
Qed.
Lemma texty_tagged wf t v : is_text t = true -> texty wf v -> texty wf (tagged t v).
Proof. intros T V. constructor. constructor; [split; assumption|constructor]. Qed.
Lemma padded_plain k n : plain (padded k n).
Proof. apply digits_plain, padded_digits. Qed.
Lemma dec_plain d : plain (show_dec d).
Proof.
  unfold show_dec. destruct (d_mant d <? 0)%Z; [apply (plain_app (L "-")); [reflexivity|]|]; (apply plain_app || idtac); try (apply digits_plain, show_N_digits); try reflexivity;
    try (destruct (d_scale d); [reflexivity|apply (plain_app (L ".")); [reflexivity|apply padded_plain]]); try (apply plain_app; [apply digits_plain, show_N_digits|]; destruct (d_scale d); [reflexivity|apply (plain_app (L ".")); [reflexivity|apply padded_plain]]).
Qed.
Lemma datetime_plain d : plain (datetime_text d).
Proof.
  unfold datetime_text, format_date, clock_text, fraction_text, offset_text. destruct (civil_of_days (dt_date d)) as [[y m] dd].
  repeat (apply padded_plain || reflexivity || apply plain_app || match goal with |- plain (if ?b then _ else _) => destruct b end).
Qed.
Lemma texty_value env v : storable env v -> texty (je_float env) (enc_value v).
Proof.
  apply (storable_ind' env (fun v => texty (je_float env) (enc_value v))); clear v; intros; cbn [enc_value enc_ref];
    repeat (apply texty_tagged; [reflexivity|]); try (constructor; assumption).
  - constructor. intros _. apply plain_text, number_plain. eapply short_text; eauto.
  - constructor. repeat constructor; try assumption. apply plain_text, dec_plain.
  - constructor. repeat constructor; assumption.
  - constructor. rewrite Forall_forall in *. intros j I. apply in_map_iff in I as (v & <- & I). auto.
  - constructor. apply plain_text, datetime_plain.
Qed.
Lemma texty_entity env e : storable_entity env e -> texty (je_float env) (enc_entity e).
Proof.
  intros (A & B & F). unfold enc_entity. constructor. repeat constructor; try assumption. rewrite Forall_forall in *. intros j I. apply in_map_iff in I as (fv & <- & I).
  destruct (F _ I) as (T & V & _). constructor. repeat constructor; [exact T|]. apply texty_value. exact V.
Qed.
(** The names in the graph are text. *)
Definition named (g : graph) : Prop :=
  (forall k n, In (k, n) (g_map g) -> is_text k = true) /\ (forall t l, In (t, l) (g_types g) -> is_text t = true) /\
  (forall a b r, In (a, b, r) (g_edges g) -> match r with EntityReference f => is_text f = true | FieldReference f t => is_text f = true /\ is_text t = true end).
Lemma texty_graph env g : walks env -> Forall (storable_entity env) (g_nodes g) -> named g -> texty (je_float env) (enc_graph env g).
Proof.
  intros [WI WK] E (NM & NT & NE). unfold enc_graph. rewrite Forall_forall in E. constructor. repeat (apply Forall_cons; [split; [reflexivity|]|]); try apply Forall_nil; cbn [snd]; constructor.
  - repeat (apply Forall_cons; [split; [reflexivity|]|]); try apply Forall_nil; cbn [snd]; constructor; try reflexivity.
    + apply Forall_forall. intros j I. apply in_map_iff in I as (e & <- & I). apply texty_entity, E, I.
    + constructor.
    + apply Forall_forall. intros j I. apply in_map_iff in I as ([[a b] r] & <- & I). pose proof (NE a b r I) as H. constructor. repeat (apply Forall_cons; [|]); try apply Forall_nil; [constructor|constructor|].
      destruct r as [f|f t]; cbn [enc_rel]; apply texty_tagged; try reflexivity; constructor; repeat constructor; try apply H.
  - apply Forall_forall. intros kv I. apply in_map_iff in I as ([k n] & <- & I). cbn [fst snd]. split; [|constructor]. apply (NM k n). apply (Permutation_in _ (WI _)). exact I.
  - apply Forall_forall. intros kv I. apply in_map_iff in I as ([k l] & <- & I). cbn [fst snd]. split; [apply (NT k l); apply (Permutation_in _ (WK _)); exact I|]. constructor.
    apply Forall_forall. intros j J. apply in_map_iff in J as (n & <- & _). constructor.
Qed.
Lemma graph_is_text env g : walks env -> Forall (storable_entity env) (g_nodes g) -> named g -> is_text (graph_text env g) = true.
Proof. intros. apply show_text, texty_graph; auto. Qed.
Lemma mk_map_entity es : forall n k m, In (k, m) (mk_map n es) -> exists e, In e es /\ e_id e = k.
Proof. induction es as [|e es IH]; cbn [mk_map]; intros n k m I; [destruct I|]. destruct I as [[= <- _]|I]; [exists e; cbn; auto|]. apply IH in I as (x & I & E). exists x. cbn. auto. Qed.
Lemma positions_entity t es : forall n m, In m (positions t n es) -> exists e, In e es /\ e_type e = t.
Proof.
  induction es as [|e es IH]; cbn [positions]; intros n m I; [destruct I|]. destruct (str_eqb_spec (e_type e) t) as [E|E]; [exists e; cbn; auto|]. apply IH in I as (x & I & X). exists x. cbn. auto.
Qed.
Lemma collect_named env m from f v : is_text f = true -> storable env v -> forall a b r, In (a, b, r) (collect_relationships m from f v) -> match r with EntityReference f => is_text f = true | FieldReference f t => is_text f = true /\ is_text t = true end.
Proof.
  intros F. revert v. apply (storable_ind' env (fun v => forall a b r, In (a, b, r) (collect_relationships m from f v) -> match r with EntityReference f => is_text f = true | FieldReference f t => is_text f = true /\ is_text t = true end));
    try (intros; cbn in *; contradiction).
  - intros id T a b r. cbn. destruct (assoc id m); cbn; [|contradiction]. intros [[= <- <- <-]|[]]. exact F.
  - intros id t T T' a b r. cbn. destruct (assoc id m); cbn; [|contradiction]. intros [[= <- <- <-]|[]]. auto.
  - intros vs _ IH a b r I. cbn [collect_relationships] in I. apply in_flat_map in I as (v & J & I). rewrite Forall_forall in IH. exact (IH v J a b r I).
Qed.
Lemma edges_named env m es : forall n, Forall (storable_entity env) es -> forall a b r, In (a, b, r) (edges_from m n es) -> match r with EntityReference f => is_text f = true | FieldReference f t => is_text f = true /\ is_text t = true end.
Proof.
  induction es as [|e es IH]; cbn [edges_from]; intros n F a b r I; [destruct I|]. inversion F as [|? ? (_ & _ & E) F']; subst. apply in_app_iff in I as [I|I]; [|exact (IH _ F' a b r I)].
  unfold entity_edges in I. apply in_flat_map in I as ([f v] & J & I). rewrite Forall_forall in E. destruct (E _ J) as (T & S & _). exact (collect_named env m n f v T S a b r I).
Qed.
Lemma built_named env g es : Inv g es -> Forall (storable_entity env) es -> named (build g).
Proof.
  intros I F. pose proof (inv_types _ _ I) as [TN T]. pose proof F as F'. rewrite Forall_forall in F'. split; [|split]; cbn [build g_map g_types g_edges].
  - intros k n J. rewrite (inv_map _ _ I) in J. apply mk_map_entity in J as (e & J & <-). apply F', J.
  - intros t l J. pose proof (assoc_one _ _ _ TN J) as A. rewrite T in A. destruct (positions t 0 es) as [|p ps] eqn:P; [discriminate|].
    destruct (positions_entity t es 0 p) as (e & K & <-); [rewrite P; left; reflexivity|]. apply F', K.
  - intros a b r J. rewrite (inv_nodes _ _ I) in J. exact (edges_named env _ es 0 F a b r J).
Qed.
Lemma read_in_order env g : walks_in_order env -> read_as env g = g.
Proof. intros [A B]. unfold read_as. rewrite A, B. destruct g; reflexivity. Qed.
Lemma in_order_walks env : walks_in_order env -> walks env.
Proof. intros [A B]. split; intros l; [rewrite A|rewrite B]; apply Permutation_refl. Qed.
