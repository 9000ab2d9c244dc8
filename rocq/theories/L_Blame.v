(** Lemmas for C87. *)
From Coq Require Import Lia Permutation.
From Verif Require Import S_Graph L_Graph.
From Verif Require Import S_Blame L_Str L_Fs L_Server L_Load L_History L_Schema L_Schema2 L_Workspace L_Init2.
From Verif Require Import M_Fs.
Close Scope Z_scope.

(** ** The build is the same *)
Definition forget (x : fault) : werror :=
  match x with FIo => WIoError | FParse p _ => WParseError p | FInvalid p _ => WValidationError p | FMissing p t => WMissingSchemaError p t end.
Lemma omap_forget {E F A B} (k : E -> F) (f : A -> outcome E B) (g : A -> outcome F B) l : (forall a, omap_err k (f a) = g a) -> omap_err k (omap f l) = omap g l.
Proof.
  intros H. induction l as [|a l IH]; cbn [omap]; [reflexivity|]. rewrite <- H, <- IH. destruct (f a) as [b|y|]; cbn [obind omap_err]; try reflexivity. destruct (omap f l); reflexivity.
Qed.
Lemma fault_schemas_same env path rel ns : forall m, omap_err forget (fault_schemas env path rel ns m) = add_schemas env path rel ns m.
Proof.
  induction ns as [|n ns IH]; intros m; cbn [fault_schemas add_schemas]; [reflexivity|]. destruct (to_schema env rel n) as [s|y|]; cbn [omap_err obind]; try reflexivity.
  destruct (assoc (s_type s) m); [reflexivity|apply IH].
Qed.
Lemma fault_collect_same env fs : forall m, omap_err forget (fault_collect env fs m) = collect_schemas env fs m.
Proof.
  induction fs as [|[p f] fs IH]; intros m; cbn [fault_collect collect_schemas]; [reflexivity|]. rewrite <- fault_schemas_same.
  destruct (fault_schemas env p (wf_rel f) (wf_schemas f) m); cbn [omap_err obind]; try reflexivity. apply IH.
Qed.
Lemma fault_entity_same be env ho path rel m n : omap_err forget (fault_entity be env ho path rel m n) = build_entity env ho path rel m n.
Proof.
  unfold fault_entity, build_entity. destruct (to_entity env rel n) as [e|y|]; cbn [omap_err obind]; try reflexivity. destruct (assoc (e_type e) m) as [s|]; cbn [of_option obind omap_err]; [|reflexivity].
  destruct (validate ho s e); reflexivity.
Qed.
Lemma fault_build_same be env ho so fs : omap_err forget (fault_build be env ho so fs) = build_workspace env ho so fs.
Proof.
  unfold fault_build, build_workspace. rewrite <- fault_collect_same. destruct (fault_collect env fs []) as [m|y|]; cbn [omap_err obind]; try reflexivity.
  rewrite <- (omap_forget forget (fault_file be env ho m) (build_file env ho m)); [destruct (omap (fault_file be env ho m) fs); reflexivity|].
  intros [p f]. unfold fault_file, build_file. cbn [fst snd]. apply omap_forget. intros n. apply fault_entity_same.
Qed.
Lemma fault_file_same be c d rel : omap_err forget (fault_load_file be c d rel) = load_file c d rel.
Proof. unfold fault_load_file, load_file. destruct (read_text _ _ _) as [t|]; [|reflexivity]. destruct (c_parse c t); reflexivity. Qed.
Lemma fault_dir_same be n c d : forall rel, omap_err forget (fault_load_dir be n c d rel) = load_dir n c d rel.
Proof.
  induction n as [|n IH]; intros rel; cbn [fault_load_dir load_dir]; [reflexivity|]. destruct (read_dir _ _ _) as [names|]; [|reflexivity].
  match goal with |- omap_err forget (obind (omap ?f names) _) = obind (omap ?g names) _ => rewrite <- (omap_forget forget f g) end;
    [destruct (omap _ names); reflexivity|]. intros name. destruct (stat _ _ _) as [[s| |]|]; try reflexivity.
  - destruct (is_firm_file name); [|reflexivity]. rewrite <- fault_file_same with (be := be). destruct (fault_load_file be c d (rel ++ [name])); reflexivity.
  - apply IH.
Qed.
Lemma fault_load_same be c d : omap_err forget (fault_load be c d) = load_directory c d.
Proof. apply fault_dir_same. Qed.
Lemma fault_rebuild_same be c d : match fault_rebuild be c d with
  | Ok st => rebuild c d = Ok st | Panic => rebuild c d = Panic | Err _ => exists e, rebuild c d = Err e end.
Proof.
  unfold fault_rebuild, rebuild, load_graph. rewrite <- (fault_load_same be). destruct (fault_load be c d) as [fs|y|]; cbn [obind omap_err]; [|eauto|reflexivity].
  cbv zeta. rewrite <- (fault_build_same be). destruct (fault_build be _ _ _ _) as [b|y|]; cbn [obind omap_err]; [|eauto|reflexivity].
  destruct (add_entities graph_new (b_entities b)) as [g [u|x]]; cbn [obind fst snd]; [reflexivity|eauto].
Qed.

(** ** What is said is so *)
Lemma fault_dir_err be n c d : forall rel x, fault_load_dir be n c d rel = Err x ->
  x = FIo \/ exists r s, read_text (c_links c) d (c_ws c ++ r) = Some s /\ c_parse c s = None /\ x = FParse (path_text (c_ws c ++ r)) (be_tree be s).
Proof.
  induction n as [|n IH]; intros rel x H; cbn [fault_load_dir] in H; [discriminate|]. destruct (read_dir _ _ _) as [names|]; [|injection H as <-; auto].
  match type of H with obind (omap ?f names) _ = _ => destruct (omap f names) as [l|y|] eqn:E end; cbn [obind] in H; try discriminate. injection H as <-.
  apply omap_err_in in E as (name & _ & E). destruct (stat _ _ _) as [[s| |]|]; try discriminate.
  - destruct (is_firm_file name); [|discriminate]. destruct (fault_load_file be c d (rel ++ [name])) as [f|z|] eqn:F; cbn [obind] in E; try discriminate. injection E as ->.
    unfold fault_load_file in F. destruct (read_text _ _ _) as [t|] eqn:R; [|injection F as <-; auto]. destruct (c_parse c t) eqn:P; [discriminate|]. injection F as <-. right. exists (rel ++ [name]), t. auto.
  - eapply IH. exact E.
Qed.
Lemma fault_schemas_err env path rel ns : forall ss0 pre x, Forall2 (reads_schema env) pre ss0 -> NoDup (map s_type ss0) ->
  fault_schemas env path rel ns (map (fun s => (s_type s, s)) ss0) = Err x ->
  (exists n y, In n ns /\ to_schema env rel n = Err y /\ x = FParse path (show_serr y)) \/
  (x = FInvalid path (L "Stuff") /\ exists ns1 n ns2 s b s', ns = ns1 ++ n :: ns2 /\ to_schema env rel n = Ok s /\
     In b (pre ++ map (fun n => (rel, n)) ns1) /\ reads_schema env b s' /\ s_type s' = s_type s).
Proof.
  induction ns as [|n ns IH]; intros ss0 pre x F N H; cbn [fault_schemas] in H; [discriminate|].
  destruct (to_schema env rel n) as [s|y|] eqn:E; cbn [omap_err obind] in H.
  - destruct (assoc (s_type s) _) as [s'|] eqn:A.
    + injection H as <-. right. split; [reflexivity|]. apply typed_some in A as [I T]; [|exact N].
      destruct (L_Workspace.Forall2_in_r _ _ _ F s' I) as (b & Hb & R). exists [], n, ns, s, b, s'.
      split; [reflexivity|]. split; [exact E|]. split; [apply in_app_iff; auto|]. auto.
    + apply typed_none in A.
      replace (map (fun s => (s_type s, s)) ss0 ++ [(s_type s, s)]) with (map (fun s => (s_type s, s)) (ss0 ++ [s])) in H
        by (rewrite map_app; reflexivity).
      destruct (IH (ss0 ++ [s]) (pre ++ [(rel, n)]) x) as [(m & y & I & Y)|(-> & ns1 & m & ns2 & s1 & b & s' & E1 & E2 & I & R)]; auto.
      * apply Forall2_app; [exact F|]. repeat constructor. exact E.
      * rewrite map_app. cbn [map]. apply Permutation_NoDup with (l := s_type s :: map s_type ss0);
          [apply Permutation_cons_append|constructor; auto].
      * left. exists m, y. split; [right; exact I|exact Y].
      * right. split; [reflexivity|]. exists (n :: ns1), m, ns2, s1, b, s'. split; [rewrite E1; reflexivity|]. split; [exact E2|].
        split; [|exact R]. rewrite <- app_assoc in I. exact I.
  - injection H as <-. left. exists n, y. split; [left; reflexivity|auto].
  - discriminate.
Qed.
Lemma fault_collect_err be env fs : forall all ss0 pre x, Forall2 (reads_schema env) pre ss0 -> NoDup (map s_type ss0) ->
  schema_blocks all = pre ++ schema_blocks fs -> incl fs all -> fault_collect env fs (map (fun s => (s_type s, s)) ss0) = Err x -> faulty be env all (show_fault be x).
Proof.
  induction fs as [|[path f] fs IH]; intros all ss0 pre x F N A IN H; cbn [fault_collect] in H; [discriminate|].
  unfold schema_blocks in A at 2. cbn [flat_map snd] in A. fold (schema_blocks fs) in A.
  destruct (fault_schemas env path (wf_rel f) (wf_schemas f) _) as [m|y|] eqn:E; cbn [obind] in H.
  - assert (E' : add_schemas env path (wf_rel f) (wf_schemas f) (map (fun s => (s_type s, s)) ss0) = Ok m) by (rewrite <- fault_schemas_same, E; reflexivity).
    apply add_schemas_ok in E' as (ss & F2 & -> & N2); [|exact N].
    apply (IH all (ss0 ++ ss) (pre ++ map (fun n => (wf_rel f, n)) (wf_schemas f)) x); auto.
    + apply Forall2_app; auto.
    + rewrite <- app_assoc. exact A.
    + intros z Z. apply IN. right. exact Z.
  - injection H as <-. assert (I0 : In (path, f) all) by (apply IN; left; reflexivity). destruct (fault_schemas_err env path (wf_rel f) (wf_schemas f) ss0 pre y F N E) as
      [(n & z & I & Z & ->)|(-> & ns1 & n & ns2 & s & b & s' & E1 & E2 & I & R1 & R2)]; cbn [show_fault].
    + eapply faulty_schema; eauto.
    + apply (faulty_two be env all path f n s (pre ++ map (fun n => (wf_rel f, n)) ns1) (map (fun n => (wf_rel f, n)) ns2 ++ schema_blocks fs) b s'); auto.
      * rewrite E1. apply in_app_iff. right. left. reflexivity.
      * rewrite A, E1, map_app. cbn [map]. rewrite <- !app_assoc. reflexivity.
  - discriminate.
Qed.
Lemma is_default_spec t : is_default_schema_type t = true <-> In t default_types.
Proof.
  unfold is_default_schema_type. rewrite existsb_exists. change default_types with (map s_type all_default_schemas). rewrite in_map_iff. split.
  - intros (s & I & E). apply str_eqb_eq in E. eauto.
  - intros (s & <- & I). exists s. split; [exact I|]. apply str_eqb_refl.
Qed.
Lemma fault_build_err be env ho so fs x : shuffles ho -> fault_build be env ho so fs = Err x -> faulty be env fs (show_fault be x).
Proof.
  intros O H. unfold fault_build in H. destruct (fault_collect env fs []) as [m|y|] eqn:C; cbn [obind] in H.
  - assert (C' : collect_schemas env fs [] = Ok m) by (rewrite <- fault_collect_same, C; reflexivity).
    destruct (collect_ok env fs [] m C') as (ss & F & -> & N); [constructor|]. cbn [app] in *.
    destruct (omap _ fs) as [ess|y|] eqn:E; try discriminate. injection H as <-.
    apply omap_err_in in E as ([p f] & I & E). unfold fault_file in E. cbn [fst snd] in E.
    apply omap_err_in in E as (n & J & E). unfold fault_entity in E.
    destruct (to_entity env (wf_rel f) n) as [e|z|] eqn:T; cbn [omap_err obind] in E; try discriminate.
    + destruct (assoc (e_type e) _) as [s|] eqn:A; cbn [of_option obind] in E.
      * apply typed_some in A as [Is Ts]; [|exact N]. pose proof (fun v => validate_in ho s e v O) as V.
        destruct (L_Workspace.Forall2_in_r _ _ _ F s Is) as (b & Hb & R). pose proof (proj2 (read_schema_storable env (fst b) (snd b) s R)) as WF. pose proof (validate_nodup ho s e O WF) as ND.
        destruct (validate ho s e) as [|v vs] eqn:Vd; try discriminate. injection E as <-. cbn [show_fault].
        apply (faulty_invalid be env fs p f n e b s (v :: vs)); auto; discriminate.
      * injection E as <-. apply typed_none in A. cbn [show_fault].
        assert (X : forall b s, In b (schema_blocks fs) -> reads_schema env b s -> s_type s <> e_type e).
        { intros b s Hb R X. destruct (L_Workspace.Forall2_in_l _ _ _ F b Hb) as (s' & Is & R'). unfold reads_schema in *.
          assert (s' = s) by congruence. subst s'. apply A. rewrite <- X. apply in_map. exact Is. }
        destruct (is_default_schema_type (e_type e)) eqn:D.
        -- eapply faulty_default; eauto. apply is_default_spec. exact D.
        -- eapply faulty_missing; eauto. intros Y. apply is_default_spec in Y. congruence.
    + injection E as <-. cbn [show_fault]. eapply faulty_entity; eauto.
  - injection H as <-. apply (fault_collect_err be env fs fs [] [] y); auto; try constructor. intros z Z. exact Z.
  - discriminate.
Qed.
Lemma accept_err new : forall es x, snd (accept_all es new) = M_Graph.Err x ->
  exists a e b e', new = a ++ e :: b /\ x = EntityAlreadyExists (e_id e) /\ In e' (es ++ a) /\ e_id e' = e_id e.
Proof.
  induction new as [|e new IH]; intros es x H; cbn in H; [discriminate|]. destruct (lookup es (e_id e)) as [e'|] eqn:K.
  - injection H as <-. apply lookup_some in K as [I E]. exists [], e, new, e'. rewrite app_nil_r. auto.
  - apply IH in H as (a & f & b & e' & -> & -> & I & E). exists (e :: a), f, b, e'. split; [reflexivity|]. split; [reflexivity|]. split; [|exact E]. rewrite <- app_assoc in I. exact I.
Qed.
Lemma add_err es g x : add_entities graph_new es = (g, M_Graph.Err x) -> exists a e' b e k, es = a ++ e' :: b ++ e :: k /\ x = EntityAlreadyExists (e_id e) /\ e_id e' = e_id e.
Proof.
  intros H. destruct (add_entities_inv graph_new [] es inv_new) as [A _]. rewrite H in A. cbn [snd] in A. symmetry in A. apply accept_err in A as (a & e & b & e' & -> & -> & I & E).
  cbn [app] in I. apply in_split in I as (a1 & a2 & ->). exists a1, e', a2, e, b. rewrite <- app_assoc. auto.
Qed.
Lemma pairs_split {A B} (R : A -> B -> Prop) l m : Forall2 R l m -> forall a x b, m = a ++ x :: b -> exists a' x' b', l = a' ++ x' :: b' /\ R x' x /\ Forall2 R b' b.
Proof.
  intros F a x b ->. apply Forall2_app_inv_r in F as (l1 & l2 & _ & F2 & ->). inversion F2 as [|x' ? l' ? Rx Rl]; subst. exists l1, x', l'. auto.
Qed.
Lemma rebuild_explained be c d x : shuffles (c_fields c) -> fault_rebuild be c d = Err x -> explained be c d (show_fault be x).
Proof.
  intros SH H. unfold fault_rebuild in H. pose proof (fault_load_same be c d) as LS. destruct (fault_load be c d) as [fs|y|] eqn:LD; cbn [obind omap_err] in *; [|injection H as ->|discriminate].
  - cbv zeta in H. pose proof (fault_build_same be (c_env c) (c_fields c) (c_schemas c) (c_files c fs)) as BS. destruct (fault_build be _ _ _ _) as [b|y|] eqn:B; cbn [obind omap_err] in *; [| |discriminate].
    + destruct (add_entities graph_new (b_entities b)) as [g [u|z]] eqn:AD; [discriminate|]. injection H as <-. apply add_err in AD as (a & e' & k & e & m & EE & -> & ID).
      symmetry in BS. apply (build_ok _ _ _ _ _ SH) in BS as (ss & (_ & RE & _) & _). rewrite EE in RE.
      destruct (pairs_split _ _ _ RE a e' _ eq_refl) as (l1 & b1 & l2 & E1 & R1 & RT). destruct (pairs_split _ _ _ RT k e m eq_refl) as (l3 & b2 & l4 & E2 & R2 & _). subst l2.
      cbn [show_fault debug_graph_error]. rewrite <- ID. exact (explained_twice be c d fs l1 l3 l4 b1 b2 e' e (eq_sym LS) E1 R1 R2 ID).
    + injection H as ->. eapply explained_blocks; [symmetry; exact LS|]. eapply fault_build_err; eauto.
  - destruct (fault_dir_err be _ c d _ _ LD) as [->|(r & s & R & P & ->)]; cbn [show_fault].
    + apply explained_io. symmetry. exact LS.
    + apply explained_syntax; auto.
Qed.

(** ** The list of faults *)
Lemma occurs_in_list be id xs x : In x xs -> forall p, occurs p (debug_verror be id x) -> occurs p (debug_verrors be id xs).
Proof.
  intros I p (a & b & E). apply in_split in I as (l1 & l2 & ->). unfold debug_verrors, occurs. rewrite map_app. cbn [map]. rewrite E.
    assert (J : forall l (y : str) r, exists u v, join (L ", ") (l ++ y :: r) = u ++ y ++ v).
    { intros l y r. induction l as [|z l IH].
      - destruct r as [|z r]; cbn [app join]; [exists [], []; rewrite app_nil_r; reflexivity|]. exists []. eexists. reflexivity.
      - destruct IH as (u & v & IH). cbn [app]. destruct (l ++ y :: r) as [|q k] eqn:Q; [destruct l; discriminate|]. cbn [join] in *. rewrite IH. exists (z ++ L ", " ++ u), v. rewrite <- !app_assoc. reflexivity. }
    destruct (J (map (debug_verror be id) l1) (a ++ p ++ b) (map (debug_verror be id) l2)) as (u & v & ->). exists (L "[" ++ u ++ a), (b ++ v ++ L "]"). rewrite <- !app_assoc. reflexivity.
Qed.
Lemma quoted_in_list be id xs x : In x xs -> occurs (be_debug be (verror_message id x)) (debug_verrors be id xs).
Proof.
  intros I. apply (occurs_in_list be id xs x I). unfold debug_verror, occurs. exists (L "ValidationError { entity_id: Some(EntityId(" ++ be_debug be id ++ L ")), field: " ++ debug_field be x ++ L ", message: "). eexists. rewrite <- !app_assoc. reflexivity.
Qed.
