(** Lemmas for C92. *)
From Coq Require Import Lia Permutation.
From Verif Require Import S_Graph L_Graph.
From Verif Require Import S_Progress L_Str L_Text L_Schema L_Schema2 L_Workspace L_Blame.
From Verif Require Import M_Text.
Close Scope Z_scope.

Lemma watch_files_same be env ho m total fs : forall k, snd (watch_files be env ho m total k fs) = omap (fault_file be env ho m) fs.
Proof.
  induction fs as [|pf fs IH]; intros k; [reflexivity|]. rewrite omap_cons. cbn [watch_files].
  destruct (fault_file be env ho m pf) as [es|x|]; cbn [obind]; try reflexivity.
  specialize (IH (S k)). destruct (watch_files be env ho m total (S k) fs) as [rs o]. cbn [snd] in *. rewrite IH. reflexivity.
Qed.
Lemma watch_files_shape be env ho m total fs : forall k,
  (forall i r, nth_error (fst (watch_files be env ho m total k fs)) i = Some r -> reports total (k + i) (L "Building entities") r).
Proof.
  induction fs as [|pf fs IH]; intros k i r; [destruct i; discriminate|]. cbn [watch_files].
  destruct (fault_file be env ho m pf) as [es|x|].
  - specialize (IH (S k)). destruct (watch_files be env ho m total (S k) fs) as [rs o]. cbn [fst] in *.
    destruct i as [|i]; cbn [nth_error]; intros H.
    + injection H as <-. repeat split. cbn. lia.
    + apply IH in H. replace (k + S i) with (S k + i) by lia. exact H.
  - cbn [fst]. destruct i as [|i]; cbn [nth_error]; intros H; [injection H as <-; repeat split; cbn; lia|destruct i; discriminate].
  - cbn [fst]. destruct i as [|i]; cbn [nth_error]; intros H; [injection H as <-; repeat split; cbn; lia|destruct i; discriminate].
Qed.
Lemma watch_files_length be env ho m total fs : forall k,
  match watch_files be env ho m total k fs with
  | (rs, Ok _) => length rs = length fs /\ Forall (fun pf => exists es, fault_file be env ho m pf = Ok es) fs
  | (rs, Err x) => exists a pf b, fs = a ++ pf :: b /\ length rs = S (length a) /\ fault_file be env ho m pf = Err x /\ Forall (fun pf => exists es, fault_file be env ho m pf = Ok es) a
  | (rs, Panic) => exists a pf b, fs = a ++ pf :: b /\ length rs = S (length a) /\ fault_file be env ho m pf = Panic /\ Forall (fun pf => exists es, fault_file be env ho m pf = Ok es) a
  end.
Proof.
  induction fs as [|pf fs IH]; intros k; cbn [watch_files]; [split; [reflexivity|constructor]|].
  destruct (fault_file be env ho m pf) as [es|x|] eqn:E.
  - specialize (IH (S k)). destruct (watch_files be env ho m total (S k) fs) as [rs [ess|x|]]; cbn [obind].
    + destruct IH as [IH F]. split; [cbn [length]; lia|]. constructor; eauto.
    + destruct IH as (a & q & b & -> & N & Q & F). exists (pf :: a), q, b. split; [reflexivity|]. split; [cbn [length]; lia|]. split; [exact Q|]. constructor; eauto.
    + destruct IH as (a & q & b & -> & N & Q & F). exists (pf :: a), q, b. split; [reflexivity|]. split; [cbn [length]; lia|]. split; [exact Q|]. constructor; eauto.
  - exists [], pf, fs. repeat split; auto.
  - exists [], pf, fs. repeat split; auto.
Qed.
(** A file is built exactly if it is sound. *)
Lemma fault_entity_ok be env ho path rel ss n e : shuffles ho -> NoDup (map s_type ss) ->
  (fault_entity be env ho path rel (map (fun s => (s_type s, s)) ss) n = Ok e <-> to_entity env rel n = Ok e /\ exists s, In s ss /\ conforms s e).
Proof.
  intros O N. rewrite <- (build_entity_ok env ho path rel ss n e O N). rewrite <- (fault_entity_same be).
  destruct (fault_entity be env ho path rel (map (fun s => (s_type s, s)) ss) n); cbn [omap_err]; split; congruence.
Qed.
Lemma omap_all {E A B} (f : A -> outcome E B) l : (exists r, omap f l = Ok r) <-> forall a, In a l -> exists b, f a = Ok b.
Proof.
  split.
  - intros (r & H). apply omap_ok in H. induction H as [|a b l r H _ IH]; intros x I; [destruct I|]. destruct I as [<-|I]; eauto.
  - induction l as [|a l IH]; intros H; [exists []; reflexivity|]. destruct (H a (or_introl eq_refl)) as (b & B1).
    destruct IH as (r & R); [intros x I; apply H; right; exact I|]. exists (b :: r). rewrite omap_cons, B1. cbn [obind]. rewrite R. reflexivity.
Qed.
Lemma fault_file_sound be env ho fs ss p f : shuffles ho -> Forall2 (reads_schema env) (schema_blocks fs) ss -> NoDup (map s_type ss) ->
  (exists es, fault_file be env ho (map (fun s => (s_type s, s)) ss) (p, f) = Ok es) <-> file_sound env fs f.
Proof.
  intros O F N. unfold fault_file, file_sound. cbn [fst snd]. rewrite omap_all. split; intros H n I.
  - destruct (H n I) as (e & E). apply (fault_entity_ok be env ho p (wf_rel f) ss n e O N) in E as (T & s & Is & C).
    destruct (L_Workspace.Forall2_in_r _ _ _ F s Is) as (b & Hb & R). exists e, b, s. auto.
  - destruct (H n I) as (e & b & s & T & Hb & R & C). exists e. apply (fault_entity_ok be env ho p (wf_rel f) ss n e O N).
    split; [exact T|]. destruct (L_Workspace.Forall2_in_l _ _ _ F b Hb) as (s' & Is & R'). unfold reads_schema in *.
    assert (s' = s) by congruence. subst s'. eauto.
Qed.
Lemma fault_file_names be env ho m p f x : fault_file be env ho m (p, f) = Err x -> names_file x p.
Proof.
  unfold fault_file. cbn [fst snd]. intros H. apply omap_err_in in H as (n & _ & H). unfold fault_entity in H.
  destruct (to_entity env (wf_rel f) n) as [e|z|]; cbn [omap_err obind] in H; try discriminate.
  - destruct (assoc (e_type e) m) as [s|]; cbn [of_option obind] in H.
    + destruct (validate ho s e); [discriminate|]. injection H as <-. reflexivity.
    + injection H as <-. reflexivity.
  - injection H as <-. reflexivity.
Qed.
Lemma fault_collect_sound env fs : match fault_collect env fs [] with
  | Ok m => exists ss, Forall2 (reads_schema env) (schema_blocks fs) ss /\ NoDup (map s_type ss) /\ m = map (fun s => (s_type s, s)) ss
  | _ => ~ schemas_sound env fs
  end.
Proof.
  pose proof (fault_collect_same env fs []) as E.
  assert (K : forall ss, Forall2 (reads_schema env) (schema_blocks fs) ss -> NoDup (map s_type ss) -> collect_schemas env fs [] = Ok (map (fun s => (s_type s, s)) ss))
    by (intros ss F N; exact (collect_conv env fs [] ss F N)).
  destruct (fault_collect env fs []) as [m|x|]; cbn [omap_err] in E.
  - symmetry in E. destruct (collect_ok env fs [] m E) as (ss & F & -> & N); [constructor|]. exists ss. auto.
  - intros (ss & F & N). rewrite (K ss F N) in E. discriminate.
  - intros (ss & F & N). rewrite (K ss F N) in E. discriminate.
Qed.
Lemma fault_collect_names env fs : forall m x, fault_collect env fs m = Err x -> exists p f, In (p, f) fs /\ names_file x p.
Proof.
  induction fs as [|[p f] fs IH]; intros m x H; cbn [fault_collect] in H; [discriminate|].
  destruct (fault_schemas env p (wf_rel f) (wf_schemas f) m) as [m'|y|] eqn:E; cbn [obind] in H; try discriminate.
  - destruct (IH m' x H) as (q & g & I & Q). exists q, g. split; [right; exact I|exact Q].
  - injection H as <-. exists p, f. split; [left; reflexivity|]. clear - E. revert m E. generalize (wf_schemas f) as ns.
    induction ns as [|n ns IH]; intros m E; cbn [fault_schemas] in E; [discriminate|].
    destruct (to_schema env (wf_rel f) n) as [s|z|]; cbn [omap_err obind] in E; try discriminate.
    + destruct (assoc (s_type s) m); [injection E as <-; reflexivity|eauto].
    + injection E as <-. reflexivity.
Qed.
