(** Lemmas for C89. *)
From Coq Require Import Lia Permutation.
From Verif Require Import S_Graph L_Graph.
From Verif Require L_Spread.
From Verif Require Import S_Life S_Swap L_Str L_Ids L_Fs L_Server L_Load L_History L_Broken L_Life L_Undo.
From Verif Require Import M_Fs.
Close Scope Z_scope.

Lemma spot_parts w rel dir n : path_of rel = dir ++ [n] -> firm_file_name n -> spot w dir n = w ++ parts rel.
Proof. intros PR FN. destruct (name_goes rel dir n PR FN) as [S1 _]. unfold spot, parts. rewrite PR. pose proof (clean_last dir n S1) as E. unfold clean in E at 1. rewrite E. reflexivity. Qed.
(** One edit. *)
Lemma one_edit c w d st r d1 st1 a : ordinary c w d -> plain_request r -> of_source r -> handle c d st r = (d1, st1, a) -> succeeded a ->
  ordinary c w d1 /\
  match edited r with
  | Some rel => exists o, leaves w d r o /\ (forall s, node_at d1 (w ++ parts rel) = Some (File s) <-> o = Some s) /\
                  forall p s, p <> w ++ parts rel -> (node_at d1 p = Some (File s) <-> node_at d p = Some (File s))
  | None => d1 = d
  end.
Proof.
  intros O R SO H A. pose proof (proj1 (edit_error_free c w d st r d1 st1 a O R H)) as O1. split; [exact O1|]. pose proof O as (RI & NL & _). pose proof O1 as (RI1 & NL1 & _).
  destruct r as [rel content force|rel old new all force|rel force|]; unfold of_source in SO; cbn [edited plain_request handle leaves] in *.
  - destruct SO as (dir & n & PR & FN). destruct R as [P _]. rewrite <- (spot_parts w rel dir n PR FN). exists (Some content). split; [reflexivity|].
    destruct (accepted_write c d w st rel content force d1 st1 a RI H A) as (_ & _ & K). destruct (wrote_at c w d d1 rel content K) as (q & R1 & F1 & OC).
    destruct (resolves_to c w rel dir n P PR FN d1 RI1 NL1 q R1) as [-> _]. split; [intros s; rewrite F1; split; congruence|].
    intros p s N. destruct (OC p N) as [-> |[E1 E2]]; [reflexivity|]. rewrite E1, E2. split; discriminate.
  - destruct SO as (dir & n & PR & FN). destruct R as [P _]. rewrite <- (spot_parts w rel dir n PR FN).
    destruct (replace_effect c d w st rel old new all force d1 st1 a RI H) as [(_ & _ & B)|(q & text & content & m & R1 & _ & F & _ & RT & _ & -> & _)].
    { exfalso. destruct A as [-> | ->]; destruct B as [B|[B|B]]; discriminate. }
    destruct (resolves_to c w rel dir n P PR FN d RI NL q R1) as [-> _]. exists (Some content). split; [exists text, content, m; auto|].
    pose proof (spot_root w dir n) as NR. split; [intros s; rewrite node_set_same by exact NR; split; congruence|]. intros p s N. rewrite node_set_other; [reflexivity|exact NR|congruence].
  - destruct SO as (dir & n & PR & FN). rewrite <- (spot_parts w rel dir n PR FN). exists None. split; [reflexivity|].
    unfold delete_source in H. destruct (delete_file c d rel) as [[d2 content]|] eqn:DF; [|injection H as <- <- <-; destruct A; discriminate].
    destruct (delete_effect c d w rel d2 content RI DF) as (q & _ & _ & R1 & _ & F & _ & -> & _). destruct (resolves_to c w rel dir n R PR FN d RI NL q R1) as [-> _].
    assert (d1 = unset_node d (spot w dir n)) as ->.
    { destruct (rebuild c (unset_node d (spot w dir n))); [injection H as <- <- <-; reflexivity| |injection H as <- <- <-; reflexivity].
      destruct force; [injection H as <- <- <-; reflexivity|]. destruct (rollback_delete _ _ _ _). injection H as <- <- <-. destruct A; discriminate. }
    pose proof (spot_root w dir n) as NR. split; [intros s; rewrite node_unset, place_eqb_refl by exact NR; split; discriminate|].
    intros p s N. rewrite node_unset by exact NR. destruct (place_eqb (spot w dir n) p) eqn:E; [apply place_eqb_eq in E; congruence|reflexivity].
  - unfold build_tool in H. destruct (rebuild c d); injection H as <- _ _; reflexivity.
Qed.
(** A series. *)
Lemma series c w rs : forall d st d1 st1 l, ordinary c w d -> Forall plain_request rs -> Forall of_source rs -> NoDup (files_of rs) ->
  serve c d st rs = (d1, st1, l) -> Forall succeeded l ->
  ordinary c w d1 /\
  (forall r rel, In r rs -> edited r = Some rel -> exists o, leaves w d r o /\ forall s, node_at d1 (w ++ parts rel) = Some (File s) <-> o = Some s) /\
  forall p s, (forall f, In f (files_of rs) -> p <> w ++ f) -> (node_at d1 p = Some (File s) <-> node_at d p = Some (File s)).
Proof.
  induction rs as [|r rs IH]; intros d st d1 st1 l O R SO ND H A; cbn [serve] in H.
  { injection H as <- <- <-. split; [exact O|]. split; [intros r rel []|reflexivity]. }
  destruct (handle c d st r) as [[dm stm] a] eqn:Hd. destruct (serve c dm stm rs) as [[d2 st2] l'] eqn:Sv. injection H as <- <- <-.
  inversion R as [|? ? R1 R2]; subst. inversion SO as [|? ? S1 S2]; subst. inversion A as [|? ? A1 A2]; subst.
  destruct (one_edit c w d st r dm stm a O R1 S1 Hd A1) as [Om E]. unfold files_of in ND. cbn [flat_map] in ND. fold (files_of rs) in ND.
  assert (ND2 : NoDup (files_of rs)) by (destruct (edited r); [inversion ND; assumption|exact ND]).
  destruct (IH dm stm d2 st2 l' Om R2 S2 ND2 Sv A2) as (O2 & E2 & K2). split; [exact O2|].
  assert (MEM : forall r' rel', In r' rs -> edited r' = Some rel' -> In (parts rel') (files_of rs)).
  { intros r' rel' I E'. apply in_flat_map. exists r'. split; [exact I|]. rewrite E'. left. reflexivity. }
  assert (BACK : forall r' o, In r' rs -> leaves w dm r' o -> leaves w d r' o).
  { intros r' o I Lv. destruct r' as [|rel' old new all force| |]; cbn [leaves] in *; try exact Lv. destruct Lv as (text & content & n & F & RT & Eo). exists text, content, n. split; [|auto].
    destruct (edited r) as [rel|] eqn:Er; [|rewrite <- E; exact F]. destruct E as (o1 & _ & _ & K). apply K; [|exact F]. intros X. apply app_inv_head in X.
    inversion ND as [|? ? NI _]; subst. apply NI. rewrite <- X. exact (MEM _ _ I eq_refl). }
  split.
  - intros r' rel' [<-|I] E'.
    + rewrite E' in E, ND. destruct E as (o & Lv & F & _). exists o. split; [exact Lv|]. intros s. rewrite <- F. apply K2. intros f If X. apply app_inv_head in X. subst f. inversion ND; contradiction.
    + destruct (E2 r' rel' I E') as (o & Lv & F). exists o. split; [exact (BACK _ _ I Lv)|exact F].
  - intros p s N. unfold files_of in N. cbn [flat_map] in N. fold (files_of rs) in N. rewrite K2 by (intros f I; apply N, in_or_app; right; exact I).
    destruct (edited r) as [rel|]; [|rewrite E; reflexivity]. destruct E as (o & _ & _ & K). apply K, N. left. reflexivity.
Qed.
Lemma leaves_one w d r o o' : leaves w d r o -> leaves w d r o' -> o = o'.
Proof.
  destruct r as [|rel old new all force| |]; cbn [leaves]; [congruence| |congruence|contradiction].
  intros (t & k & n & F & RT & ->) (t' & k' & n' & F' & RT' & ->). assert (t = t') by congruence. subst t'. congruence.
Qed.
Lemma files_in rs f : In f (files_of rs) <-> exists r rel, In r rs /\ edited r = Some rel /\ f = parts rel.
Proof.
  unfold files_of. rewrite in_flat_map. split.
  - intros (r & I & F). destruct (edited r) as [rel|] eqn:E; [|destruct F]. destruct F as [<-|[]]. exists r, rel. auto.
  - intros (r & rel & I & E & ->). exists r. split; [exact I|]. rewrite E. left. reflexivity.
Qed.
Lemma files_perm rs rs' : Permutation rs rs' -> Permutation (files_of rs) (files_of rs').
Proof. intros P. unfold files_of. rewrite !flat_map_concat_map. induction P; cbn [map concat]; [reflexivity|apply Permutation_app_head; assumption|rewrite !app_assoc; apply Permutation_app_tail, Permutation_app_comm|eapply perm_trans; eassumption]. Qed.
Lemma any_order c w rs rs' d st d1 st1 l d2 st2 l' : ordinary c w d -> Forall plain_request rs -> Forall of_source rs -> NoDup (files_of rs) -> Permutation rs rs' ->
  serve c d st rs = (d1, st1, l) -> Forall succeeded l -> serve c d st rs' = (d2, st2, l') -> Forall succeeded l' -> ordinary c w d1 /\ ordinary c w d2 /\ same_files d1 d2.
Proof.
  intros O R SO ND P H A H' A'. pose proof (files_perm _ _ P) as FP.
  assert (R' : Forall plain_request rs') by (rewrite Forall_forall in *; intros r I; apply R; eapply Permutation_in; [apply Permutation_sym; exact P|exact I]).
  assert (SO' : Forall of_source rs') by (rewrite Forall_forall in *; intros r I; apply SO; eapply Permutation_in; [apply Permutation_sym; exact P|exact I]).
  destruct (series c w rs d st d1 st1 l O R SO ND H A) as (O1 & E1 & K1).
  destruct (series c w rs' d st d2 st2 l' O R' SO' (Permutation_NoDup FP ND) H' A') as (O2 & E2 & K2). split; [exact O1|]. split; [exact O2|].
  intros p s. assert (D : (exists f, In f (files_of rs) /\ p = w ++ f) \/ forall f, In f (files_of rs) -> p <> w ++ f).
  { generalize (files_of rs). clear. intros l. induction l as [|f l IH]; [right; intros f []|]. destruct (list_eq_dec (list_eq_dec ascii_dec) p (w ++ f)) as [E|E]; [left; exists f; split; [left; reflexivity|exact E]|].
    destruct IH as [(g & I & G)|IH]; [left; exists g; split; [right; exact I|exact G]|right; intros g [<-|I]; [exact E|exact (IH g I)]]. }
  destruct D as [(f & I & ->)|D].
  - apply files_in in I as (r & rel & I & E & ->). destruct (E1 r rel I E) as (o & L1 & F1). destruct (E2 r rel (Permutation_in _ P I) E) as (o' & L2 & F2). rewrite F1, F2, (leaves_one _ _ _ _ _ L1 L2). reflexivity.
  - rewrite (K1 p s D), (K2 p s); [reflexivity|]. intros f I. apply D. eapply Permutation_in; [apply Permutation_sym; exact FP|exact I].
Qed.
Lemma same_files_built c w d1 d2 x1 : shuffles (c_fields c) -> (forall l, Permutation (c_schemas c l) l) -> (forall l, Permutation (c_files c l) l) ->
  ordinary c w d1 -> ordinary c w d2 -> same_files d1 d2 -> rebuild c d1 = Ok x1 -> exists x2, rebuild c d2 = Ok x2 /\ as_before x1 x2.
Proof.
  intros SH PS PC (RI & NL & T & _) (RI2 & NL2 & T2 & _) SF B.
  assert (SS : forall r s, source_of w d2 r s <-> source_of w d1 r s) by (intros r s; unfold source_of; rewrite (SF (w ++ r) s); reflexivity).
  destruct (same_rebuild c w d1 d2 x1 SH PS PC RI NL T RI2 NL2 T2 SS B) as (x2 & B2 & Q1 & Q2). exists x2. split; [exact B2|]. split; [exact Q1|]. split; [exact Q2|].
  intros id. destruct (rebuild_lookup c d1 x1 B) as [N L0]. destruct (rebuild_lookup c d2 x2 B2) as [N2 L2]. rewrite L0, L2. apply L_Spread.lookup_perm; [exact N2|exact Q2].
Qed.
(** After a series whose last edit was accepted, what is served is what is there. *)
Lemma last_built c w rs : forall d st d1 st1 l, ordinary c w d -> Forall plain_request rs -> serve c d st rs = (d1, st1, l) -> last l Refused = Accepted -> rebuild c d1 = Ok st1.
Proof.
  induction rs as [|r rs IH]; intros d st d1 st1 l O R H A; cbn [serve] in H; [injection H as <- <- <-; discriminate|].
  destruct (handle c d st r) as [[dm stm] a] eqn:Hd. destruct (serve c dm stm rs) as [[d2 st2] l'] eqn:Sv. injection H as <- <- <-. inversion R as [|? ? R1 R2]; subst.
  pose proof (proj1 (edit_error_free c w d st r dm stm a O R1 Hd)) as Om. destruct l' as [|b l'].
  - destruct rs as [|r' rs]; [|cbn [serve] in Sv; destruct (handle c dm stm r') as [[? ?] ?]; destruct (serve c f s rs) as [[? ?] ?]; discriminate]. cbn [serve last] in *. injection Sv as <- <-. subst a.
    exact (accepted_built c w d st r dm stm (proj1 O) Hd).
  - exact (IH dm stm d2 st2 (b :: l') Om R2 Sv A).
Qed.
Lemma forced_fails c w d st r d1 st1 : runs_in c d w -> handle c d st r = (d1, st1, Forced) -> exists e, rebuild c d1 = Err e.
Proof.
  intros RI H. destruct r as [rel content force|rel old new all force|rel force|]; cbn [handle] in H.
  - destruct (accepted_write c d w st rel content force d1 st1 Forced RI H (or_intror eq_refl)) as ((_ & _ & K) & _). exact K.
  - destruct (replace_effect c d w st rel old new all force d1 st1 Forced RI H) as [(_ & _ & [B|[B|B]])|(q & text & content & n & _ & _ & _ & _ & _ & _ & _ & B)]; try discriminate. exact (proj2 B).
  - unfold delete_source in H. destruct (delete_file c d rel) as [[d2 s]|]; [|discriminate]. destruct (rebuild c d2) eqn:B; [discriminate| |discriminate]. destruct force; [injection H as <- <-; eauto|]. destruct (rollback_delete _ _ _ _). discriminate.
  - unfold build_tool in H. destruct (rebuild c d); discriminate.
Qed.
Lemma last_forced c w rs : forall d st d1 st1 l, ordinary c w d -> Forall plain_request rs -> serve c d st rs = (d1, st1, l) -> last l Refused = Forced -> exists e, rebuild c d1 = Err e.
Proof.
  induction rs as [|r rs IH]; intros d st d1 st1 l O R H A; cbn [serve] in H; [injection H as <- <- <-; discriminate|].
  destruct (handle c d st r) as [[dm stm] a] eqn:Hd. destruct (serve c dm stm rs) as [[d2 st2] l'] eqn:Sv. injection H as <- <- <-. inversion R as [|? ? R1 R2]; subst.
  pose proof (proj1 (edit_error_free c w d st r dm stm a O R1 Hd)) as Om. destruct l' as [|b l'].
  - destruct rs as [|r' rs]; [|cbn [serve] in Sv; destruct (handle c dm stm r') as [[? ?] ?]; destruct (serve c f s rs) as [[? ?] ?]; discriminate]. cbn [serve last] in *. injection Sv as <- <-. subst a.
    exact (forced_fails c w d st r dm stm (proj1 O) Hd).
  - exact (IH dm stm d2 st2 (b :: l') Om R2 Sv A).
Qed.
Lemma last_succeeded l : Forall succeeded l -> l <> [] -> succeeded (last l Refused).
Proof. intros F N. destruct (exists_last N) as (l' & a & ->). rewrite last_last. apply Forall_app in F as [_ F]. inversion F. assumption. Qed.
Lemma serve_length c rs : forall d st d1 st1 l, serve c d st rs = (d1, st1, l) -> length l = length rs.
Proof.
  induction rs as [|r rs IH]; intros d st d1 st1 l H; cbn [serve] in H; [injection H as <- <- <-; reflexivity|].
  destruct (handle c d st r) as [[dm stm] a]. destruct (serve c dm stm rs) as [[d2 st2] l'] eqn:Sv. injection H as <- <- <-. cbn [length]. rewrite (IH _ _ _ _ _ Sv). reflexivity.
Qed.
