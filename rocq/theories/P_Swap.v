(** C89: edits of different files can be made in any order. *)
From Coq Require Import Lia Permutation.
From Verif Require Import S_Graph S_Query L_Graph L_Exec L_Laws P_Query P_Spread.
From Verif Require Import S_Life S_Conc L_Conc S_Swap L_Str L_Text L_Ids L_Fs L_Load L_Server L_History L_Broken L_Life L_Spread L_Undo L_Swap.
From Verif Require Import P_Schema P_Dsl P_Workspace P_Server P_Add P_Conc P_Undo.
From Verif Require Import M_Fs M_Dsl S_Swap.
Close Scope Z_scope.

(** After a series of successful edits of different files, forced or not, each of
    these files holds what its edit makes of the text it had at first, and every
    other file is as it was. *)
Theorem C89_each_edit_stands : forall c w d st rs d1 st1 l, ordinary c w d -> Forall plain_request rs -> Forall of_source rs -> NoDup (files_of rs) ->
  serve c d st rs = (d1, st1, l) -> Forall (fun a => a = Accepted \/ a = Forced) l ->
  (forall r rel, In r rs -> edited r = Some rel -> exists o, leaves w d r o /\ forall s, node_at d1 (w ++ parts rel) = Some (File s) <-> o = Some s) /\
  (forall p s, (forall f, In f (files_of rs) -> p <> w ++ f) -> (node_at d1 p = Some (File s) <-> node_at d p = Some (File s))).
Proof. intros c w d st rs d1 st1 l O R SO ND H A. exact (proj2 (series c w rs d st d1 st1 l O R SO ND H A)). Qed.
Print Assumptions C89_each_edit_stands.

(** So the order does not matter: the files are the same. The last edit builds in
    the one order exactly if it does in the other, and the schemas, entities and
    answers are then the same. *)
Theorem C89_any_order : forall c w d st rs rs' d1 st1 l d2 st2 l', shuffles (c_fields c) -> (forall l, Permutation (c_schemas c l) l) -> (forall l, Permutation (c_files c l) l) ->
  ordinary c w d -> Forall plain_request rs -> Forall of_source rs -> NoDup (files_of rs) -> Permutation rs rs' ->
  serve c d st rs = (d1, st1, l) -> Forall (fun a => a = Accepted \/ a = Forced) l -> serve c d st rs' = (d2, st2, l') -> Forall (fun a => a = Accepted \/ a = Forced) l' ->
  same_files d1 d2 /\ (last l Refused = Accepted -> last l' Refused = Accepted /\ as_before st1 st2).
Proof.
  intros c w d st rs rs' d1 st1 l d2 st2 l' SH PS PC O R SO ND P H A H' A'. destruct (any_order c w rs rs' d st d1 st1 l d2 st2 l' O R SO ND P H A H' A') as (O1 & O2 & SF). split; [exact SF|].
  intros LA. pose proof (last_built c w rs d st d1 st1 l O R H LA) as B1. destruct (same_files_built c w d1 d2 st1 SH PS PC O1 O2 SF B1) as (x2 & B2 & AB).
  assert (R' : Forall plain_request rs') by (rewrite Forall_forall in *; intros r I; apply R; eapply Permutation_in; [apply Permutation_sym; exact P|exact I]).
  assert (NE : l' <> []).
  { intros ->. apply serve_length in H, H'. rewrite (Permutation_length P) in H. cbn in H'. rewrite <- H' in H. destruct l; discriminate. }
  destruct (last_succeeded l' A' NE) as [Y|Y].
  - split; [exact Y|]. pose proof (last_built c w rs' d st d2 st2 l' O R' H' Y) as B3. assert (x2 = st2) by congruence. subst x2. exact AB.
  - destruct (last_forced c w rs' d st d2 st2 l' O R' H' Y) as (e & E). congruence.
Qed.
Print Assumptions C89_any_order.
(** Every query then answers the same. *)
Theorem C89_queries_alike : forall c w d st rs rs' d1 st1 l d2 st2 l', shuffles (c_fields c) -> (forall l, Permutation (c_schemas c l) l) -> (forall l, Permutation (c_files c l) l) ->
  ordinary c w d -> Forall plain_request rs -> Forall of_source rs -> NoDup (files_of rs) -> Permutation rs rs' ->
  serve c d st rs = (d1, st1, l) -> Forall (fun a => a = Accepted \/ a = Forced) l -> serve c d st rs' = (d2, st2, l') -> Forall (fun a => a = Accepted \/ a = Forced) l' ->
  last l Refused = Accepted -> forall x ho ho' s ops, orders ho -> orders ho' -> no_limit ops ->
  same_entities (execute x (st_graph st1) ho {| q_from := s; q_ops := ops; q_agg := None |})
                (execute x (st_graph st2) ho' {| q_from := s; q_ops := ops; q_agg := None |}).
Proof.
  intros c w d st rs rs' d1 st1 l d2 st2 l' SH PS PC O R SO ND P H A H' A' LA.
  destruct (C89_any_order c w d st rs rs' d1 st1 l d2 st2 l' SH PS PC O R SO ND P H A H' A') as [_ K]. destruct (K LA) as [LA' AB].
  assert (R' : Forall plain_request rs') by (rewrite Forall_forall in *; intros r I; apply R; eapply Permutation_in; [apply Permutation_sym; exact P|exact I]).
  exact (C85_queries_as_before c d1 d2 st1 st2 (last_built c w rs d st d1 st1 l O R H LA) (last_built c w rs' d st d2 st2 l' O R' H' LA') AB).
Qed.
Print Assumptions C89_queries_alike.

(** Nor does it matter whether the requests overlap, and how, if they are all
    accepted: the files and what is served are the same as one by one. *)
Theorem C89_overlapping_alike : forall c ae w d st rs sched d1 st1 l, shuffles (c_fields c) -> (forall l, Permutation (c_schemas c l) l) -> (forall l, Permutation (c_files c l) l) ->
  ordinary c w d -> rebuild c d = M_Text.Ok st -> Forall plain_request rs -> Forall of_source rs -> rs <> [] -> ~ In Build rs -> different_files w (map Edit rs) ->
  serve c d st rs = (d1, st1, l) -> Forall (eq Accepted) l ->
  let s := runs c ae (begin d st (map Edit rs)) sched in answered s (map (fun _ => Accepted) rs) ->
  same_files d1 (sy_disk s) /\ as_before st1 (sy_state s).
Proof.
  intros c ae w d st rs sched d1 st1 l SH PS PC O RB R SO NE NB DF H A s An.
  assert (PE : Forall plain_edit (map Edit rs)).
  { apply Forall_map. rewrite Forall_forall in *. intros r I. specialize (R r I). destruct r; try exact R. contradiction. }
  assert (NMW : forall rel, names w rel = w ++ parts rel) by reflexivity.
  assert (EDT : forall r rel, edits (Edit r) rel <-> edited r = Some rel) by (intros r rel; destruct r; cbn; split; congruence || contradiction).
  assert (ND : NoDup (files_of rs)).
  { clear - DF NMW EDT. assert (G : forall k, NoDup (files_of (skipn k rs))); [|exact (G 0)]. intros k. remember (skipn k rs) as t eqn:E. revert k E. induction t as [|r t IH]; intros k E; [constructor|].
    assert (T : t = skipn (S k) rs) by (clear - E; revert k E; induction rs as [|x rs IH]; intros [|k] E; cbn [skipn] in *; try discriminate; [injection E as _ ->; reflexivity|exact (IH k E)]).
    assert (Nk : nth_error rs k = Some r) by (clear - E; revert k E; induction rs as [|x rs IH]; intros [|k] E; cbn [skipn nth_error] in *; try discriminate; [injection E as -> _; reflexivity|exact (IH k E)]).
    unfold files_of. cbn [flat_map]. fold (files_of t). destruct (edited r) as [rel|] eqn:Er; [|exact (IH (S k) T)]. apply NoDup_cons; [|exact (IH (S k) T)].
    intros I. apply files_in in I as (r' & rel' & I & Er' & X). apply In_nth_error in I as (j & Nj). rewrite T in Nj.
    assert (Nj' : nth_error rs (S k + j) = Some r') by (rewrite <- Nj; clear; generalize (S k); intros m; revert j; induction m as [|m IH] in rs |- *; intros j; [reflexivity|destruct rs as [|x rs]; cbn [skipn nth_error plus]; [destruct j; reflexivity|apply IH]]).
    apply (DF k (S k + j) (Edit r) (Edit r') rel rel'); try (rewrite nth_error_map; first [rewrite Nk|rewrite Nj']; reflexivity); [apply EDT; exact Er|apply EDT; exact Er'|lia|].
    rewrite !NMW, X. exists []. rewrite app_nil_r. reflexivity. }
  assert (A' : Forall succeeded l) by (eapply Forall_impl; [|exact A]; intros a <-; left; reflexivity).
  destruct (series c w rs d st d1 st1 l O R SO ND H A') as (O1 & E1 & K1). destruct (runs_sees c ae w d st (map Edit rs) sched O PE DF) as (O2 & _). fold s in O2.
  destruct (C41_different_files_are_not_disturbed c ae d w st (map Edit rs) sched _ O PE DF An) as [E2 K2]. fold s in E2, K2.
  assert (SF : same_files d1 (sy_disk s)).
  { intros p t. assert (D : (exists f, In f (files_of rs) /\ p = w ++ f) \/ forall f, In f (files_of rs) -> p <> w ++ f).
    { generalize (files_of rs). clear. intros l. induction l as [|f l IH]; [right; intros f []|]. destruct (list_eq_dec (list_eq_dec ascii_dec) p (w ++ f)) as [E|E]; [left; exists f; split; [left; reflexivity|exact E]|].
      destruct IH as [(g & I & G)|IH]; [left; exists g; split; [right; exact I|exact G]|right; intros g [<-|I]; [exact E|exact (IH g I)]]. }
    destruct D as [(f & I & ->)|D].
    - apply files_in in I as (r & rel & I & E & ->). destruct (E1 r rel I E) as (o & L1 & F1). rewrite F1. apply In_nth_error in I as (i & Ni).
      pose proof (E2 i (Edit r) rel Accepted ltac:(rewrite nth_error_map, Ni; reflexivity) (proj2 (EDT r rel) E) ltac:(rewrite nth_error_map, Ni; reflexivity)) as M. rewrite NMW in M. cbn [made_of] in M.
      destruct r as [rel' content force|rel' old new all force|rel' force|]; cbn [edited] in E; try discriminate; injection E as ->; cbn [S_Conc.edited leaves] in *.
      + rewrite M, L1. split; congruence.
      + destruct M as (text & content & m & N1 & N2 & N3). destruct L1 as (text' & content' & m' & F1' & F2' & ->). rewrite N3. assert (text = text') by congruence. subst text'. assert (content = content') by congruence. subst content'. split; congruence.
      + rewrite M, L1. split; discriminate.
    - rewrite (K1 p t D). destruct (K2 p) as [-> |[X Y]]; [|reflexivity|rewrite X, Y; split; discriminate].
      intros k rel I E. apply in_map_iff in I as (r & <- & I). rewrite NMW. apply D, files_in. exists r, rel. split; [exact I|]. split; [apply EDT; exact E|reflexivity]. }
  split; [exact SF|]. assert (NL : l <> []) by (intros ->; apply serve_length in H; destruct rs; [congruence|discriminate]).
  assert (LA : last l Refused = Accepted) by (destruct (exists_last NL) as (l0 & a & ->); rewrite last_last; apply Forall_app in A as [_ A]; inversion A; auto).
  pose proof (last_built c w rs d st d1 st1 l O R H LA) as B1. 
  assert (PT : Forall plain_task (map Edit rs)) by (eapply Forall_impl; [|exact PE]; intros [[| | |]|]; cbn; tauto).
  assert (SM : smooth (map (fun _ => Accepted) rs)) by (intros a I; apply in_map_iff in I as (_ & <- & _); left; reflexivity).
  destruct (C41_served_is_the_disk_if_no_build_fails c ae d w st (map Edit rs) sched _ (proj1 O) (proj1 (proj2 O)) PT RB An SM) as (b3 & a3 & _ & B3 & X3). fold s in B3, X3.
  destruct (runs_sees c ae w d st (map Edit rs) b3 O PE DF) as (O3 & _).
  assert (SF3 : same_files d1 (sy_disk (runs c ae (begin d st (map Edit rs)) b3))).
  { intros p t. rewrite <- (SF p t). destruct (X3 p) as [-> |[Y1 Y2]]; [reflexivity|]. rewrite Y1, Y2. split; discriminate. }
  destruct (same_files_built c w d1 _ st1 SH PS PC O1 O3 SF3 B1) as (x3 & B4 & AB3). assert (x3 = sy_state s) by congruence. subst x3. exact AB3.
Qed.
Print Assumptions C89_overlapping_alike.

(** The order may decide what is accepted: an entity can be written after its
    schema and not before it. *)
Theorem C89_accepted_in_any_order_refuted : exists c w d st r1 r2 d1 st1 d2 st2, ordinary c w d /\ rebuild c d = M_Text.Ok st /\
  Forall plain_request [r1; r2] /\ Forall of_source [r1; r2] /\ NoDup (files_of [r1; r2]) /\
  serve c d st [r1; r2] = (d1, st1, [Accepted; Accepted]) /\ serve c d st [r2; r1] = (d2, st2, [Invalid true; Accepted]) /\ ~ same_files d1 d2.
Proof.
  exists c3, w0, d0, st0, (Write (L "y.firm") (L "robots") false), (Write (L "x.firm") (L "unknown type") false). eexists. eexists. eexists. eexists.
  split; [exact d0_ordinary3|]. split; [vm_compute; reflexivity|]. split; [repeat constructor; reflexivity|].
  split; [repeat apply Forall_cons; try apply Forall_nil; [exists [], (L "y.firm"); split; [reflexivity|]; exists (L "y"); split; [discriminate|reflexivity]
         |exists [], (L "x.firm"); split; [reflexivity|]; exists (L "x"); split; [discriminate|reflexivity]]|].
  split; [repeat constructor; cbn; intuition discriminate|]. split; [vm_compute; reflexivity|]. split; [vm_compute; reflexivity|].
  intros SF. pose proof (proj2 (SF [L "w"; L "x.firm"] (L "unknown type")) eq_refl) as E. vm_compute in E. discriminate.
Qed.
Print Assumptions C89_accepted_in_any_order_refuted.
(** And of edits of one file the last one stands. *)
Theorem C89_one_file_refuted : exists c w d st r1 r2 d1 st1 d2 st2, ordinary c w d /\ rebuild c d = M_Text.Ok st /\
  Forall plain_request [r1; r2] /\ Forall of_source [r1; r2] /\
  serve c d st [r1; r2] = (d1, st1, [Accepted; Accepted]) /\ serve c d st [r2; r1] = (d2, st2, [Accepted; Accepted]) /\ ~ same_files d1 d2.
Proof.
  exists c0, w0, d0, st0, (Write (L "x.firm") (L "jane") false), (Write (L "x.firm") (L "jim") false). eexists. eexists. eexists. eexists.
  split; [exact d0_ordinary|]. split; [vm_compute; reflexivity|]. split; [repeat constructor; reflexivity|].
  split; [repeat apply Forall_cons; try apply Forall_nil; (exists [], (L "x.firm"); split; [reflexivity|]; exists (L "x"); split; [discriminate|reflexivity])|].
  split; [vm_compute; reflexivity|]. split; [vm_compute; reflexivity|].
  intros SF. pose proof (proj2 (SF [L "w"; L "x.firm"] (L "jim")) eq_refl) as E. vm_compute in E. discriminate.
Qed.
Print Assumptions C89_one_file_refuted.

Definition three_edits : list request := [Write (L "sub/x.firm") (L "jane") false; Replace (L "./a.firm") (L "ohn") (L "im") false false; Delete (L "b.firm") false].
Example C89_case : Forall plain_request three_edits /\ Forall of_source three_edits /\ NoDup (files_of three_edits) /\ ~ In Build three_edits /\ different_files w0 (map Edit three_edits) /\
  (exists d1 st1 d2 st2, serve c0 d0 st0 three_edits = (d1, st1, [Accepted; Accepted; Accepted]) /\ serve c0 d0 st0 (rev three_edits) = (d2, st2, [Accepted; Accepted; Accepted])) /\
  answered (runs c0 ae0 (begin d0 st0 (map Edit three_edits)) [0; 1; 2; 2; 0; 1; 0; 1; 2; 1]) [Accepted; Accepted; Accepted].
Proof.
  split; [repeat constructor; reflexivity|].
  split; [repeat apply Forall_cons; try apply Forall_nil; [exists [L "sub"], (L "x.firm"); split; [reflexivity|]; exists (L "x"); split; [discriminate|reflexivity]
         |exists [L "."], (L "a.firm"); split; [reflexivity|]; exists (L "a"); split; [discriminate|reflexivity]
         |exists [], (L "b.firm"); split; [reflexivity|]; exists (L "b"); split; [discriminate|reflexivity]]|].
  split; [repeat constructor; cbn; intuition discriminate|]. split; [cbn; intuition discriminate|].
  split; [intros i j k k' rel rel' Ni Nj E E' NE (x & H); destruct i as [|[|[|[|i]]]], j as [|[|[|[|j]]]]; cbn in Ni, Nj; try congruence; injection Ni as <-; injection Nj as <-; cbn in E, E'; subst; vm_compute in H; discriminate|].
  split; [|vm_compute; reflexivity]. eexists. eexists. eexists. eexists. split; vm_compute; reflexivity.
Qed.
