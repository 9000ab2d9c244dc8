(** Lemmas: the schema builder, building workspaces and loading graphs. *)
From Coq Require Import Lia Sorted.
From Verif Require Import M_Schema M_Workspace S_Schema S_Graph L_Str L_Ids L_Graph L_Sort L_Text L_DslStr L_DslVal L_Schema L_Schema2.
Close Scope Z_scope.

(** ** Builder *)
Lemma bstep_laid s (cs : list bcall) l c : laid s (length cs) l -> length (s_fields s) = length cs ->
  ~ In (bname c) (map fst (s_fields s)) -> exists p, decl_of p = bdecl c /\ fst p = bname c /\
  laid (bstep s c) (S (length cs)) (l ++ [p]) /\ length (s_fields (bstep s c)) = S (length cs) /\
  map fst (s_fields (bstep s c)) = map fst (s_fields s) ++ [bname c].
Proof.
  intros La E F. pose proof (laid_perm _ _ _ La) as P.
  assert (F' : ~ In (bname c) (map fst l)).
  { intros X. apply F. eapply Permutation_in; [apply Permutation_map; symmetry; exact P|exact X]. }
  assert (FS : forall f : fschema, assoc_set (bname c) f (s_fields s) = s_fields s ++ [(bname c, f)]).
  { intros f. apply assoc_set_fresh, assoc_none. exact F. }
  destruct c as [req id t|req id vs]; cbn [bname] in *.
  - exists (id, fschema_new t req (length cs)). split; [reflexivity|]. split; [reflexivity|].
    cbn [bstep]. unfold with_field_mode, next_order. rewrite E. split.
    + pose proof (laid_add s (length cs) l id (fschema_new t req (length cs)) La (le_n _)) as H.
      rewrite others_fresh in H by auto. exact H.
    + cbn [add_field_schema s_fields]. rewrite FS, app_length, map_app. cbn. split; [lia|reflexivity].
  - exists (id, fschema_new_enum req (length cs) vs). split; [reflexivity|]. split; [reflexivity|].
    cbn [bstep]. unfold with_enum_mode, next_order. rewrite E. split.
    + pose proof (laid_add s (length cs) l id (fschema_new_enum req (length cs) vs) La (le_n _)) as H.
      rewrite others_fresh in H by auto. exact H.
    + cbn [add_field_schema s_fields]. rewrite FS, app_length, map_app. cbn. split; [lia|reflexivity].
Qed.

Lemma bbuild_laid t cs : NoDup (map bname cs) -> exists l,
  laid (bbuild t cs) (length cs) l /\ map decl_of l = map bdecl cs /\
  length (s_fields (bbuild t cs)) = length cs /\ map fst (s_fields (bbuild t cs)) = map bname cs.
Proof.
  induction cs as [|c cs IH] using rev_ind; intros N.
  - exists []. repeat split; try constructor.
  - rewrite map_app in N. cbn [map] in N. apply NoDup_remove in N as [N1 N2]. rewrite app_nil_r in *.
    destruct (IH N1) as (l & La & D & E & K). unfold bbuild in *. rewrite fold_left_app. cbn [fold_left].
    destruct (bstep_laid _ cs l c La E) as (p & D' & Fp & La' & E' & K').
    { rewrite K. exact N2. }
    exists (l ++ [p]). rewrite app_length, !map_app, Nat.add_1_r. cbn [map length]. rewrite D, D', K', K, E'. auto.
Qed.

Lemma metadata_laid s k l : laid s k l -> k <= 100 ->
  (forall d, In d metadata -> ~ In (d_name d) (map fst (s_fields s))) ->
  exists l' k', laid (with_metadata s) k' l' /\ map decl_of l' = map decl_of l ++ metadata.
Proof.
  intros La K F. unfold with_metadata.
  replace (new_id (L "notes")) with (L "notes") by (vm_compute; reflexivity).
  replace (new_id (L "created_at")) with (L "created_at") by (vm_compute; reflexivity).
  replace (new_id (L "updated_at")) with (L "updated_at") by (vm_compute; reflexivity).
  assert (F' : forall id, In id (map d_name metadata) -> ~ In id (map fst l)).
  { intros id Hi X. apply in_map_iff in Hi as (d & <- & Hd). apply (F d Hd).
    eapply Permutation_in; [apply Permutation_map; symmetry; exact (laid_perm _ _ _ La)|exact X]. }
  set (f1 := fschema_new TStr false 100). set (f2 := fschema_new TDate false 101). set (f3 := fschema_new TDate false 102).
  pose proof (laid_add s k l (L "notes") f1 La) as L1. cbn [f1 fs_order fschema_new] in L1. specialize (L1 K).
  rewrite others_fresh in L1 by (apply F'; left; reflexivity).
  pose proof (laid_add _ _ _ (L "created_at") f2 L1 (le_n _)) as L2.
  rewrite others_fresh in L2.
  2: { rewrite map_app, in_app_iff. intros [X|[X|[]]]; [|discriminate]. revert X. apply F'. right; left; reflexivity. }
  pose proof (laid_add _ _ _ (L "updated_at") f3 L2 (le_n _)) as L3.
  rewrite others_fresh in L3.
  2: { rewrite !map_app, !in_app_iff. intros [[X|[X|[]]]|[X|[]]]; try discriminate. revert X. apply F'. right; right; left; reflexivity. }
  eexists. eexists. split; [exact L3|]. rewrite !map_app, <- !app_assoc. reflexivity.
Qed.

(** ** Building *)
Lemma typed_none (ss : list schema) t : assoc t (map (fun s => (s_type s, s)) ss) = None <-> ~ In t (map s_type ss).
Proof. rewrite assoc_none, map_map. cbn [fst]. reflexivity. Qed.
Lemma typed_some (ss : list schema) t s : NoDup (map s_type ss) ->
  (assoc t (map (fun s => (s_type s, s)) ss) = Some s <-> In s ss /\ s_type s = t).
Proof.
  induction ss as [|x ss IH]; cbn [map assoc In]; intros N.
  - split; [discriminate|intros [[] _]].
  - inversion N as [|? ? N1 N2]; subst. destruct (str_eqb_spec (s_type x) t) as [<-|D].
    + split; [intros [= <-]; auto|]. intros [[->|I] E]; auto. exfalso. apply N1. rewrite <- E. apply in_map; auto.
    + rewrite (IH N2). split; [intros [I E]; auto|]. intros [[->|I] E]; [contradiction|auto].
Qed.

Lemma add_schemas_ok env path rel ns : forall ss0 m', 
  add_schemas env path rel ns (map (fun s => (s_type s, s)) ss0) = Ok m' -> NoDup (map s_type ss0) ->
  exists ss, Forall2 (reads_schema env) (map (fun n => (rel, n)) ns) ss /\
    m' = map (fun s => (s_type s, s)) (ss0 ++ ss) /\ NoDup (map s_type (ss0 ++ ss)).
Proof.
  induction ns as [|n ns IH]; intros ss0 m' H N; cbn [add_schemas map] in H.
  - injection H as <-. exists []. rewrite app_nil_r. repeat split; auto. constructor.
  - apply obind_ok in H as (s & H1 & H). apply omap_err_ok in H1.
    destruct (assoc (s_type s) (map (fun s => (s_type s, s)) ss0)) eqn:A; [discriminate|]. apply typed_none in A.
    replace (map (fun s => (s_type s, s)) ss0 ++ [(s_type s, s)]) with (map (fun s => (s_type s, s)) (ss0 ++ [s])) in H
      by (rewrite map_app; reflexivity).
    apply IH in H as (ss & F & -> & N').
    + exists (s :: ss). rewrite <- app_assoc in *. split; [constructor; auto|auto].
    + rewrite map_app. cbn [map]. apply nodup_snoc; auto.
Qed.
Lemma add_schemas_conv env path rel ns ss : Forall2 (reads_schema env) (map (fun n => (rel, n)) ns) ss -> forall ss0,
  NoDup (map s_type (ss0 ++ ss)) ->
  add_schemas env path rel ns (map (fun s => (s_type s, s)) ss0) = Ok (map (fun s => (s_type s, s)) (ss0 ++ ss)).
Proof.
  revert ss; induction ns as [|n ns IH]; intros ss F ss0 N; cbn [map add_schemas] in *; inversion F as [|? s ? ss' R F']; subst.
  - rewrite app_nil_r. reflexivity.
  - unfold reads_schema in R. cbn [fst snd] in R. rewrite R. cbn [omap_err obind].
    assert (A : assoc (s_type s) (map (fun s => (s_type s, s)) ss0) = None).
    { apply typed_none. intros X. rewrite map_app in N. cbn [map] in N. apply NoDup_remove_2 in N. apply N, in_app_iff; auto. }
    rewrite A. replace (map (fun s => (s_type s, s)) ss0 ++ [(s_type s, s)]) with (map (fun s => (s_type s, s)) (ss0 ++ [s]))
      by (rewrite map_app; reflexivity).
    rewrite (IH ss' F'); rewrite <- app_assoc; auto.
Qed.

Lemma nodup_left {A} (l l' : list A) : NoDup (l ++ l') -> NoDup l.
Proof.
  induction l as [|x l IH]; cbn; intros H; [constructor|]. inversion H as [|? ? H1 H2]; subst. constructor; auto.
  intros X. apply H1, in_app_iff. auto.
Qed.
Lemma Forall2_app_l {A B} (R : A -> B -> Prop) l1 l2 r : Forall2 R (l1 ++ l2) r ->
  exists r1 r2, r = r1 ++ r2 /\ Forall2 R l1 r1 /\ Forall2 R l2 r2.
Proof. intros H. apply Forall2_app_inv_l in H as (r1 & r2 & H1 & H2 & ->). eauto. Qed.

Lemma collect_ok env fs : forall ss0 m',
  collect_schemas env fs (map (fun s => (s_type s, s)) ss0) = Ok m' -> NoDup (map s_type ss0) ->
  exists ss, Forall2 (reads_schema env) (schema_blocks fs) ss /\
    m' = map (fun s => (s_type s, s)) (ss0 ++ ss) /\ NoDup (map s_type (ss0 ++ ss)).
Proof.
  induction fs as [|[path f] fs IH]; intros ss0 m' H N; cbn [collect_schemas] in H.
  - injection H as <-. exists []. rewrite app_nil_r. repeat split; auto. constructor.
  - apply obind_ok in H as (m1 & H1 & H). apply add_schemas_ok in H1 as (ss1 & F1 & -> & N1); auto.
    apply IH in H as (ss2 & F2 & -> & N2); auto. exists (ss1 ++ ss2). rewrite app_assoc. split; auto.
    unfold schema_blocks. cbn [flat_map snd]. apply Forall2_app; auto.
Qed.
Lemma collect_conv env fs : forall ss0 ss, Forall2 (reads_schema env) (schema_blocks fs) ss ->
  NoDup (map s_type (ss0 ++ ss)) ->
  collect_schemas env fs (map (fun s => (s_type s, s)) ss0) = Ok (map (fun s => (s_type s, s)) (ss0 ++ ss)).
Proof.
  induction fs as [|[path f] fs IH]; intros ss0 ss F N; unfold schema_blocks in F; cbn [flat_map snd collect_schemas] in *.
  - inversion F; subst. rewrite app_nil_r. reflexivity.
  - apply Forall2_app_l in F as (r1 & r2 & -> & F1 & F2). rewrite app_assoc in *.
    assert (N1 : NoDup (map s_type (ss0 ++ r1))).
    { rewrite map_app in N. exact (nodup_left _ _ N). }
    rewrite (add_schemas_conv env path (wf_rel f) _ r1 F1 ss0 N1). cbn [obind]. apply IH; auto.
Qed.

Lemma build_entity_ok env ho path rel ss n e : shuffles ho -> NoDup (map s_type ss) ->
  (build_entity env ho path rel (map (fun s => (s_type s, s)) ss) n = Ok e <->
   to_entity env rel n = Ok e /\ exists s, In s ss /\ conforms s e).
Proof.
  intros O N. unfold build_entity. split.
  - intros H. apply obind_ok in H as (e' & H1 & H). apply omap_err_ok in H1. apply obind_ok in H as (s & H2 & H).
    destruct (assoc (e_type e') _) as [s'|] eqn:A; cbn in H2; [|discriminate]. injection H2 as ->.
    apply typed_some in A as [I T]; auto. destruct (validate ho s e') as [|] eqn:V; [|discriminate]. injection H as ->.
    apply validate_conforms in V; auto. split; eauto.
  - intros (H & s & I & C). rewrite H. cbn [omap_err obind]. destruct C as (T & C).
    rewrite (proj2 (typed_some ss (e_type e) s N)) by auto. cbn [of_option obind].
    rewrite (proj2 (validate_conforms ho s e O)); [reflexivity|split; auto].
Qed.

Lemma build_files_ok env ho ss fs : shuffles ho -> NoDup (map s_type ss) -> forall ess,
  (omap (build_file env ho (map (fun s => (s_type s, s)) ss)) fs = Ok ess ->
   Forall2 (reads_entity env) (entity_blocks fs) (concat ess) /\
   forall e, In e (concat ess) -> exists s, In s ss /\ conforms s e).
Proof.
  intros O N. induction fs as [|[path f] fs IH]; intros ess H.
  - injection H as <-. split; [constructor|intros e []].
  - rewrite omap_cons in H. apply obind_ok in H as (es & H1 & H). apply obind_ok in H as (ess' & H2 & H).
    injection H as <-. apply IH in H2 as [F C]. cbn [concat]. unfold build_file in H1. cbn [fst snd] in H1. apply omap_ok in H1.
    split.
    + unfold entity_blocks. cbn [flat_map snd]. apply Forall2_app; auto.
      clear - H1 O N. induction H1 as [|n e ns es H1 _ IH]; cbn [map]; constructor; auto.
      apply build_entity_ok in H1 as [H1 _]; auto.
    + intros e He. apply in_app_iff in He as [He|He]; auto.
      clear - H1 O N He. induction H1 as [|n e' ns es H1 _ IH]; [destruct He|]. destruct He as [<-|He]; auto.
      apply build_entity_ok in H1 as [_ H1]; auto.
Qed.
Lemma build_files_conv env ho ss fs : shuffles ho -> NoDup (map s_type ss) -> forall es,
  Forall2 (reads_entity env) (entity_blocks fs) es -> (forall e, In e es -> exists s, In s ss /\ conforms s e) ->
  exists ess, omap (build_file env ho (map (fun s => (s_type s, s)) ss)) fs = Ok ess /\ concat ess = es.
Proof.
  intros O N. induction fs as [|[path f] fs IH]; intros es F C.
  - inversion F; subst. exists []. auto.
  - unfold entity_blocks in F. cbn [flat_map snd] in F. apply Forall2_app_l in F as (e1 & e2 & -> & F1 & F2).
    destruct (IH e2 F2) as (ess & E & <-).
    { intros e He. apply C, in_app_iff; auto. }
    exists (e1 :: ess). split; [|reflexivity]. rewrite omap_cons. unfold build_file at 1. cbn [fst snd].
    assert (E1 : omap (build_entity env ho path (wf_rel f) (map (fun s => (s_type s, s)) ss)) (wf_entities f) = Ok e1).
    { apply omap_ok. assert (C1 : forall e, In e e1 -> exists s, In s ss /\ conforms s e) by (intros e He; apply C, in_app_iff; auto).
      clear - F1 C1 O N. revert e1 F1 C1. induction (wf_entities f) as [|n ns IHn]; intros e1 F C; cbn [map] in F; inversion F; subst; constructor.
      - apply build_entity_ok; auto. split; auto. apply C. left; reflexivity.
      - apply IHn; auto. intros e He. apply C. right; auto. }
    rewrite E1. cbn [obind]. rewrite E. reflexivity.
Qed.

Lemma build_ok env ho so fs b : shuffles ho ->
  (build_workspace env ho so fs = Ok b <->
   exists ss, consistent env fs ss (b_entities b) /\ b_schemas b = so ss).
Proof.
  intros O. unfold build_workspace, consistent. split.
  - intros H. apply obind_ok in H as (m & H1 & H). apply (collect_ok env fs []) in H1 as (ss & F & -> & N); [|constructor].
    cbn [app] in *. apply obind_ok in H as (ess & H2 & H). injection H as <-. cbn [b_entities b_schemas].
    apply build_files_ok in H2 as [F2 C]; auto. exists ss. rewrite map_map. cbn [snd]. rewrite map_id. auto.
  - intros (ss & (F & F2 & N & C) & E). pose proof (collect_conv env fs [] ss F N) as K. cbn [map app] in K. rewrite K. cbn [obind].
    destruct (build_files_conv env ho ss fs O N _ F2 C) as (ess & E2 & E3). rewrite E2. cbn [obind].
    rewrite map_map. cbn [snd]. rewrite map_id. destruct b as [es' ss']; cbn in *. subst. reflexivity.
Qed.

Lemma Forall2_perm {A B} (R : A -> B -> Prop) l l' : Permutation l l' -> forall r, Forall2 R l r ->
  exists r', Permutation r r' /\ Forall2 R l' r'.
Proof.
  induction 1 as [|x l l' P IH|x y l|l l' l'' P1 IH1 P2 IH2]; intros r F.
  - inversion F; subst. exists []. auto.
  - inversion F as [|? b ? r0 H1 H2]; subst. apply IH in H2 as (r' & P' & F'). exists (b :: r'). auto.
  - inversion F as [|? b ? r0 H1 H2]; subst. inversion H2 as [|? c ? r1 H3 H4]; subst. exists (c :: b :: r1). split; [apply perm_swap|auto].
  - apply IH1 in F as (r1 & Q1 & F1). apply IH2 in F1 as (r2 & Q2 & F2). exists r2. split; auto. eapply perm_trans; eauto.
Qed.
Lemma Forall2_fun {A B} (R : A -> B -> Prop) l r r' : (forall a b b', R a b -> R a b' -> b = b') ->
  Forall2 R l r -> Forall2 R l r' -> r = r'.
Proof.
  intros D F. revert r'. induction F as [|a b l r H F IH]; intros r' F'; inversion F'; subst; auto. f_equal; eauto.
Qed.
Lemma perm_flat_map {A B} (f : A -> list B) l l' : Permutation l l' -> Permutation (flat_map f l) (flat_map f l').
Proof.
  induction 1 as [|x l l' P IH|x y l|l l' l'' P1 IH1 P2 IH2]; cbn [flat_map]; auto.
  - apply Permutation_app_head; auto.
  - rewrite !app_assoc. apply Permutation_app_tail, Permutation_app_comm.
  - eapply perm_trans; eauto.
Qed.
Lemma consistent_perm env fs fs' ss es : Permutation fs fs' -> consistent env fs ss es ->
  exists ss' es', consistent env fs' ss' es' /\ Permutation ss ss' /\ Permutation es es'.
Proof.
  intros P (F1 & F2 & N & C). unfold schema_blocks, entity_blocks in *.
  destruct (Forall2_perm _ _ _ (perm_flat_map _ _ _ P) _ F1) as (ss' & P1 & F1').
  destruct (Forall2_perm _ _ _ (perm_flat_map _ _ _ P) _ F2) as (es' & P2 & F2').
  exists ss', es'. split; [|auto]. split; [exact F1'|]. split; [exact F2'|]. split.
  - eapply Permutation_NoDup; [apply Permutation_map; exact P1|exact N].
  - intros e He. destruct (C e) as (s & I & H); [eapply Permutation_in; [symmetry; exact P2|exact He]|].
    exists s. split; auto. eapply Permutation_in; eauto.
Qed.

(** ** Loading *)
Lemma accept_all_ok new : forall es, NoDup (map e_id es) ->
  (snd (accept_all es new) = M_Graph.Ok tt <-> NoDup (map e_id (es ++ new))) /\
  (NoDup (map e_id (es ++ new)) -> fst (accept_all es new) = es ++ new).
Proof.
  induction new as [|e new IH]; intros es N; cbn [accept_all].
  - rewrite app_nil_r. cbn. tauto.
  - destruct (lookup es (e_id e)) as [x|] eqn:E.
    + cbn [snd fst]. assert (X : ~ NoDup (map e_id (es ++ e :: new))).
      { rewrite map_app. cbn [map]. intros Y. apply NoDup_remove_2 in Y. apply Y, in_app_iff. left.
        apply lookup_some in E as [I <-]. apply in_map; auto. }
      split; [split; [discriminate|tauto]|tauto].
    + apply lookup_none in E. assert (N' : NoDup (map e_id (es ++ [e]))).
      { rewrite map_app. cbn [map]. apply nodup_snoc; auto. intros X. apply E. apply in_map_iff in X as (x & X1 & X2). exists x; auto. }
      destruct (IH (es ++ [e]) N') as [A B]. rewrite <- app_assoc in A, B. cbn [app] in A, B. split; auto.
Qed.

Lemma load_ok env ho so fs b g : load_graph env ho so fs = Ok (b, g) <->
  build_workspace env ho so fs = Ok b /\ NoDup (map e_id (b_entities b)) /\
  g = run [OAddMany (b_entities b); OBuild].
Proof.
  assert (K : forall es, match add_entities graph_new es with
                         | (g, M_Graph.Ok _) => NoDup (map e_id es)
                         | (_, M_Graph.Err _) => ~ NoDup (map e_id es) end).
  { intros es. destruct (add_entities_inv graph_new [] es inv_new) as [A _].
    destruct (accept_all_ok es []) as [B _]; [constructor|]. cbn [app] in B. rewrite <- A in B.
    destruct (add_entities graph_new es) as [g' [[]|x]]; cbn [snd] in B; [apply B; reflexivity|]. intros X. apply B in X. discriminate. }
  unfold load_graph. split.
  - intros H. apply obind_ok in H as (b' & H1 & H). apply omap_err_ok in H1. specialize (K (b_entities b')).
    destruct (add_entities graph_new (b_entities b')) as [g' [u|x]] eqn:A; [|discriminate]. injection H as <- <-.
    split; [exact H1|]. split; [exact K|]. unfold run. cbn [fold_left step fst]. rewrite A. reflexivity.
  - intros (H1 & N & ->). rewrite H1. cbn [omap_err obind]. specialize (K (b_entities b)). unfold run. cbn [fold_left step fst].
    destruct (add_entities graph_new (b_entities b)) as [g' [u|x]] eqn:A; [reflexivity|contradiction].
Qed.
Lemma load_spec es : NoDup (map e_id es) -> spec_run [OAddMany es; OBuild] = es.
Proof.
  intros N. unfold spec_run. cbn [fold_left spec_step fst]. destruct (accept_all_ok es []) as [_ B]; [constructor|]. apply B. exact N.
Qed.

Lemma Forall2_in_l {A B} (R : A -> B -> Prop) l r : Forall2 R l r -> forall a, In a l -> exists b, In b r /\ R a b.
Proof.
  induction 1 as [|a b l r H F IH]; intros x; [intros []|]. intros [<-|I]; [exists b; split; [left; reflexivity|exact H]|].
  destruct (IH x I) as (y & Hy & Ry). exists y. split; [right; exact Hy|exact Ry].
Qed.
Lemma Forall2_in_r {A B} (R : A -> B -> Prop) l r : Forall2 R l r -> forall b, In b r -> exists a, In a l /\ R a b.
Proof.
  induction 1 as [|a b l r H F IH]; intros x; [intros []|]. intros [<-|I]; [exists a; split; [left; reflexivity|exact H]|].
  destruct (IH x I) as (y & Hy & Ry). exists y. split; [right; exact Hy|exact Ry].
Qed.
Lemma omap_in {E A B} (f : A -> outcome E B) l r : omap f l = Ok r -> forall a b, In a l -> f a = Ok b -> In b r.
Proof.
  revert r. induction l as [|x l IH]; intros r H a b; [intros []|]. cbn [omap] in H.
  destruct (f x) as [y| |] eqn:Ex; try discriminate. cbn [obind] in H. destruct (omap f l) as [r'| |]; try discriminate.
  injection H as <-. intros [<-|I] Ea; [left; congruence|right; eapply IH; eauto].
Qed.
Lemma to_entity_field env path n e m p : to_entity env path n = Ok e -> In m (en_fields n) ->
  convert_field env path m = Ok p -> In p (e_fields e).
Proof.
  unfold to_entity. destruct (en_type n), (en_id n); try discriminate. cbn [of_option obind].
  destruct (omap (convert_field env path) (en_fields n)) as [r| |] eqn:E; try discriminate.
  intros [= <-] I C. exact (omap_in _ _ _ E _ _ I C).
Qed.

(** ** Errors *)
Lemma add_schemas_err env path rel ns : forall ss0 pre x, Forall2 (reads_schema env) pre ss0 -> NoDup (map s_type ss0) ->
  add_schemas env path rel ns (map (fun s => (s_type s, s)) ss0) = Err x ->
  (x = WParseError path /\ exists n y, In n ns /\ to_schema env rel n = Err y) \/
  (x = WValidationError path /\ exists ns1 n ns2 s b s', ns = ns1 ++ n :: ns2 /\ to_schema env rel n = Ok s /\
     In b (pre ++ map (fun n => (rel, n)) ns1) /\ reads_schema env b s' /\ s_type s' = s_type s).
Proof.
  induction ns as [|n ns IH]; intros ss0 pre x F N H; cbn [add_schemas] in H; [discriminate|].
  destruct (to_schema env rel n) as [s|y|] eqn:E; cbn [omap_err obind] in H.
  - destruct (assoc (s_type s) _) as [s'|] eqn:A.
    + injection H as <-. right. split; [reflexivity|]. apply typed_some in A as [I T]; [|exact N].
      destruct (Forall2_in_r _ _ _ F s' I) as (b & Hb & R). exists [], n, ns, s, b, s'.
      split; [reflexivity|]. split; [exact E|]. split; [apply in_app_iff; auto|]. auto.
    + apply typed_none in A.
      replace (map (fun s => (s_type s, s)) ss0 ++ [(s_type s, s)]) with (map (fun s => (s_type s, s)) (ss0 ++ [s])) in H
        by (rewrite map_app; reflexivity).
      destruct (IH (ss0 ++ [s]) (pre ++ [(rel, n)]) x) as [(-> & m & y & I & Y)|(-> & ns1 & m & ns2 & s1 & b & s' & E1 & E2 & I & R)]; auto.
      * apply Forall2_app; [exact F|]. repeat constructor. exact E.
      * rewrite map_app. cbn [map]. apply Permutation_NoDup with (l := s_type s :: map s_type ss0);
          [apply Permutation_cons_append|constructor; auto].
      * left. split; [reflexivity|]. exists m, y. split; [right; exact I|exact Y].
      * right. split; [reflexivity|]. exists (n :: ns1), m, ns2, s1, b, s'. split; [rewrite E1; reflexivity|]. split; [exact E2|].
        split; [|exact R]. rewrite <- app_assoc in I. exact I.
  - injection H as <-. left. split; [reflexivity|]. exists n, y. split; [left; reflexivity|exact E].
  - discriminate.
Qed.
Lemma collect_err env fs : forall all ss0 pre x, Forall2 (reads_schema env) pre ss0 -> NoDup (map s_type ss0) ->
  all = pre ++ schema_blocks fs -> collect_schemas env fs (map (fun s => (s_type s, s)) ss0) = Err x ->
  (exists p f n y, x = WParseError p /\ In (p, f) fs /\ In n (wf_schemas f) /\ to_schema env (wf_rel f) n = Err y) \/
  (exists p f n s l1 l2 b s', x = WValidationError p /\ In (p, f) fs /\ In n (wf_schemas f) /\ to_schema env (wf_rel f) n = Ok s /\
     all = l1 ++ (wf_rel f, n) :: l2 /\ In b l1 /\ reads_schema env b s' /\ s_type s' = s_type s).
Proof.
  induction fs as [|[path f] fs IH]; intros all ss0 pre x F N A H; cbn [collect_schemas] in H; [discriminate|].
  unfold schema_blocks in A. cbn [flat_map snd] in A. fold (schema_blocks fs) in A.
  destruct (add_schemas env path (wf_rel f) (wf_schemas f) _) as [m|y|] eqn:E; cbn [obind] in H.
  - apply add_schemas_ok in E as (ss & F2 & -> & N2); [|exact N].
    destruct (IH all (ss0 ++ ss) (pre ++ map (fun n => (wf_rel f, n)) (wf_schemas f)) x) as [(p & f' & n & y & -> & I & R)|
      (p & f' & n & s & l1 & l2 & b & s' & -> & I & R)]; auto.
    + apply Forall2_app; auto.
    + rewrite <- app_assoc. exact A.
    + left. exists p, f', n, y. split; [reflexivity|]. split; [right; exact I|exact R].
    + right. exists p, f', n, s, l1, l2, b, s'. split; [reflexivity|]. split; [right; exact I|exact R].
  - injection H as <-. destruct (add_schemas_err env path (wf_rel f) (wf_schemas f) ss0 pre y F N E) as
      [(-> & n & z & I & Z)|(-> & ns1 & n & ns2 & s & b & s' & E1 & E2 & I & R)].
    + left. exists path, f, n, z. split; [reflexivity|]. split; [left; reflexivity|]. auto.
    + right. exists path, f, n, s, (pre ++ map (fun n => (wf_rel f, n)) ns1), (map (fun n => (wf_rel f, n)) ns2 ++ schema_blocks fs), b, s'.
      split; [reflexivity|]. split; [left; reflexivity|]. split; [rewrite E1; apply in_app_iff; right; left; reflexivity|].
      split; [exact E2|]. split; [|auto]. rewrite A, E1, map_app. cbn [map]. rewrite <- !app_assoc. reflexivity.
  - discriminate.
Qed.
Lemma omap_err_in {E A B} (f : A -> outcome E B) l x : omap f l = Err x -> exists a, In a l /\ f a = Err x.
Proof.
  induction l as [|a l IH]; cbn [omap]; [discriminate|]. destruct (f a) as [b|y|] eqn:Ea; cbn [obind].
  - destruct (omap f l) as [r|y|]; try discriminate. intros [= <-]. destruct IH as (a' & I & Ha); [reflexivity|]. exists a'. split; [right; exact I|exact Ha].
  - intros [= <-]. exists a. split; [left; reflexivity|exact Ea].
  - discriminate.
Qed.
Lemma build_blames env ho so fs x : shuffles ho -> build_workspace env ho so fs = Err x -> blamed env fs x.
Proof.
  intros O H. unfold build_workspace in H. destruct (collect_schemas env fs []) as [m|y|] eqn:C; cbn [obind] in H.
  - destruct (collect_ok env fs [] m C) as (ss & F & -> & N); [constructor|]. cbn [app] in *.
    destruct (omap _ fs) as [ess|y|] eqn:E; try discriminate. injection H as <-.
    apply omap_err_in in E as ([p f] & I & E). unfold build_file in E. cbn [fst snd] in E.
    apply omap_err_in in E as (n & J & E). unfold build_entity in E.
    destruct (to_entity env (wf_rel f) n) as [e|z|] eqn:T; cbn [omap_err obind] in E; try discriminate.
    + destruct (assoc (e_type e) _) as [s|] eqn:A; cbn [of_option obind] in E.
      * apply typed_some in A as [Is Ts]; [|exact N]. pose proof (validate_conforms ho s e O) as V.
        destruct (validate ho s e) eqn:Vd; try discriminate. injection E as <-. cbn [blamed]. exists f. split; [exact I|]. right.
        destruct (Forall2_in_r _ _ _ F s Is) as (b & Hb & R). exists n, e, b, s. repeat (split; auto).
        intros X. apply V in X. discriminate.
      * injection E as <-. apply typed_none in A. cbn [blamed]. exists f, n, e. repeat (split; auto).
        intros b s Hb R X. destruct (Forall2_in_l _ _ _ F b Hb) as (s' & Is & R'). unfold reads_schema in *.
        assert (s' = s) by congruence. subst s'. apply A. rewrite <- X. apply in_map. exact Is.
    + injection E as <-. cbn [blamed]. exists f. split; [exact I|]. right. eauto.
  - injection H as <-. destruct (collect_err env fs (schema_blocks fs) [] [] y (Forall2_nil _) (NoDup_nil _) eq_refl C) as
      [(p & f & n & z & -> & I & J & Z)|(p & f & n & s & l1 & l2 & b & s' & -> & I & J & R)].
    + cbn [blamed]. exists f. split; [exact I|]. left. exists n, z. auto.
    + cbn [blamed]. exists f. split; [exact I|]. left. exists n, s, l1, l2, b, s'. tauto.
  - discriminate.
Qed.
Lemma build_panics env ho so fs : build_workspace env ho so fs = Panic ->
  exists p f, In (p, f) fs /\ ((exists n, In n (wf_schemas f) /\ to_schema env (wf_rel f) n = Panic) \/
                              (exists n, In n (wf_entities f) /\ to_entity env (wf_rel f) n = Panic)).
Proof.
  assert (OP : forall E A B (g : A -> outcome E B) l, omap g l = Panic -> exists a, In a l /\ g a = Panic).
  { intros E A B g l. induction l as [|a l IH]; cbn [omap]; [discriminate|]. destruct (g a) as [b|y|] eqn:Ea; cbn [obind].
    - destruct (omap g l) as [r|y|]; try discriminate. intros _. destruct IH as (a' & I & Ha); [reflexivity|]. exists a'. split; [right; exact I|exact Ha].
    - discriminate.
    - intros _. exists a. split; [left; reflexivity|exact Ea]. }
  assert (AP : forall path rel ns m, add_schemas env path rel ns m = Panic -> exists n, In n ns /\ to_schema env rel n = Panic).
  { intros path rel ns. induction ns as [|n ns IH]; intros m H; cbn [add_schemas] in H; [discriminate|].
    destruct (to_schema env rel n) as [s|y|] eqn:E; cbn [omap_err obind] in H; try discriminate.
    - destruct (assoc (s_type s) m); [discriminate|]. apply IH in H as (n' & I & Z). exists n'. split; [right; exact I|exact Z].
    - exists n. split; [left; reflexivity|exact E]. }
  assert (CP : forall gs m, collect_schemas env gs m = Panic -> exists p f, In (p, f) gs /\ exists n, In n (wf_schemas f) /\ to_schema env (wf_rel f) n = Panic).
  { intros gs. induction gs as [|[p f] gs IH]; intros m H; cbn [collect_schemas] in H; [discriminate|].
    destruct (add_schemas env p (wf_rel f) (wf_schemas f) m) as [m'|y|] eqn:E; cbn [obind] in H; try discriminate.
    - apply IH in H as (p' & f' & I & Z). exists p', f'. split; [right; exact I|exact Z].
    - apply AP in E. exists p, f. split; [left; reflexivity|exact E]. }
  unfold build_workspace. destruct (collect_schemas env fs []) as [m|y|] eqn:C; cbn [obind]; try discriminate; intros H.
  - destruct (omap _ fs) as [ess|y|] eqn:E; try discriminate. apply OP in E as ([p f] & I & E). unfold build_file in E.
    apply OP in E as (n & J & E). cbn [fst snd] in *. exists p, f. split; [exact I|]. right. exists n. split; [exact J|].
    unfold build_entity in E. destruct (to_entity env (wf_rel f) n) as [e|y|]; cbn [omap_err obind] in E; try discriminate; [|reflexivity].
    destruct (assoc _ _); cbn [of_option obind] in E; [|discriminate]. destruct (validate _ _ _); discriminate.
  - destruct (CP fs [] C) as (p & f & I & Z). exists p, f. auto.
Qed.
Lemma lookup_perm es es' id : NoDup (map e_id es) -> Permutation es es' -> lookup es id = lookup es' id.
Proof.
  intros N P. assert (N' : NoDup (map e_id es')) by (eapply Permutation_NoDup; [apply Permutation_map; exact P|exact N]).
  destruct (lookup es id) as [e|] eqn:E.
  - apply lookup_some in E as [I <-]. symmetry. apply lookup_in; [exact N'|]. eapply Permutation_in; eauto.
  - destruct (lookup es' id) as [e|] eqn:E'; [|reflexivity]. apply lookup_some in E' as [I <-].
    apply (Permutation_in _ (Permutation_sym P)) in I. rewrite (lookup_in _ _ N I) in E. discriminate.
Qed.
