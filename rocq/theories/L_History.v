(** Lemmas about sequences of requests. *)
From Coq Require Import Lia.
From Verif Require Import S_Server L_Str L_Text L_DslStr L_Fs L_Server L_Load.
Close Scope Z_scope.

(** ** Text *)
Fixpoint utf8_end (need : nat) (s : str) : option nat :=
  match s with
  | [] => Some need
  | c :: s' =>
      match need with
      | S k => if is_cont c then utf8_end k s' else None
      | 0 => if (code c <? 128)%N then utf8_end 0 s'
             else if (code c <? 194)%N then None
             else if (code c <? 224)%N then utf8_end 1 s'
             else if (code c <? 240)%N then utf8_end 2 s'
             else if (code c <? 245)%N then utf8_end 3 s'
             else None
      end
  end.
Lemma utf8_go_end n s : utf8_go n s = true <-> utf8_end n s = Some 0.
Proof.
  revert n. induction s as [|c s IH]; intros n; cbn [utf8_go utf8_end].
  - destruct n; split; congruence.
  - destruct n as [|n].
    + repeat (match goal with |- context [if ?b then _ else _] => destruct b end; try apply IH; try (split; discriminate)).
    + destruct (is_cont c); cbn [andb]; [apply IH|split; discriminate].
Qed.
Lemma utf8_end_app n a b : utf8_end n (a ++ b) = match utf8_end n a with Some k => utf8_end k b | None => None end.
Proof.
  revert n. induction a as [|c a IH]; intros n; cbn [app utf8_end]; [reflexivity|].
  destruct n; repeat (match goal with |- context [if ?b then _ else _] => destruct b end; try apply IH; try reflexivity).
Qed.
Lemma text_app a b : is_text a = true -> is_text b = true -> is_text (a ++ b) = true.
Proof. unfold is_text. rewrite !utf8_go_end, utf8_end_app. intros -> ->. reflexivity. Qed.
Lemma text_head c s : is_text (c :: s) = true -> is_cont c = false.
Proof.
  unfold is_text, is_cont. cbn [utf8_go]. destruct (code c <? 128)%N eqn:A.
  - intros _. apply N.ltb_lt in A. apply Bool.andb_false_iff. left. apply N.leb_gt. exact A.
  - destruct (code c <? 194)%N eqn:B; [discriminate|]. intros _. apply N.ltb_ge in B. apply Bool.andb_false_iff. right. apply N.leb_gt. lia.
Qed.
Lemma text_cut a pat b : pat <> [] -> is_text pat = true -> is_text (a ++ pat ++ b) = true -> is_text a = true /\ is_text b = true.
Proof.
  intros N P. destruct pat as [|c pat]; [congruence|]. pose proof (text_head c pat P) as H. unfold is_text in *.
  rewrite !utf8_go_end in *. rewrite utf8_end_app. destruct (utf8_end 0 a) as [[|k]|] eqn:E; [|cbn [app utf8_end]; rewrite H; discriminate|discriminate].
  rewrite utf8_end_app, P. auto.
Qed.
Lemma text_pieces pat ps : pat <> [] -> is_text pat = true -> is_text (join pat ps) = true -> Forall (fun p => is_text p = true) ps.
Proof.
  intros N P. induction ps as [|p ps IH]; intros H; [constructor|]. destruct ps as [|p2 ps]; [constructor; [exact H|constructor]|].
  rewrite join_cons in H by discriminate. apply text_cut in H as [A B]; auto.
Qed.
Lemma text_join sep ps : is_text sep = true -> Forall (fun p => is_text p = true) ps -> is_text (join sep ps) = true.
Proof.
  intros S. induction 1 as [|p ps H F IH]; [reflexivity|]. destruct ps as [|p2 ps]; [exact H|]. rewrite join_cons by discriminate.
  apply text_app; [exact H|]. apply text_app; auto.
Qed.
Lemma replaced_text text old new all content n : old <> [] -> is_text text = true -> is_text old = true -> is_text new = true ->
  replace_text text old new all = Replaced content n -> is_text content = true.
Proof.
  intros N T O W. unfold replace_text. destruct (count_matches old text =? 0); [destruct (cut_for_display old); discriminate|].
  destruct ((1 <? count_matches old text) && negb all); [destruct (cut_for_display old); discriminate|]. intros [= <- _].
  assert (F : Forall (fun p => is_text p = true) (split_str old text)) by (apply (text_pieces old); auto; rewrite join_split_str; auto).
  destruct all; [apply text_join; auto|]. unfold replace_first. destruct (split_str old text) as [|a [|b rest]]; auto.
  inversion F as [|? ? F1 F2]; subst. apply text_app; [exact F1|]. apply text_app; [exact W|]. apply text_join; auto.
Qed.

(** ** Each place listed once *)
Lemma set_listed d p n x : In x (map fst (set_node d p n)) -> x = p \/ In x (map fst d).
Proof.
  induction d as [|[q m] d IH]; cbn [set_node map fst In]; [intros [<-|[]]; auto|].
  destruct (place_eqb q p) eqn:E; cbn [map fst In]; [auto|]. intros [<-|H]; [auto|]. destruct (IH H); auto.
Qed.
Lemma tidy_set d p n : tidy d -> tidy (set_node d p n).
Proof.
  unfold tidy. induction d as [|[q m] d IH]; cbn [set_node map fst]; intros T; [repeat constructor; auto|].
  inversion T as [|? ? T1 T2]; subst. destruct (place_eqb q p) eqn:E; cbn [map fst]; [constructor; auto|].
  constructor; [|auto]. intros H. apply set_listed in H as [->|H]; [|contradiction]. rewrite place_eqb_refl in E. discriminate.
Qed.
Lemma tidy_unset d p : tidy d -> tidy (unset_node d p).
Proof.
  unfold tidy, unset_node. induction d as [|[q m] d IH]; cbn [filter map fst]; intros T; [constructor|].
  inversion T as [|? ? T1 T2]; subst. destruct (negb (place_eqb q p)); cbn [map fst]; [constructor|]; auto.
  intros H. apply T1. apply in_map_iff in H as (e & <- & I). apply filter_In in I as [I _]. apply in_map. exact I.
Qed.
Lemma tidy_write k d p s d' : tidy d -> write k d p s = Some d' -> tidy d'.
Proof.
  unfold write. intros T. destruct (resolve k d p) as [q|q| |]; try discriminate; [destruct (node_at d q) as [[]|]; try discriminate|];
    intros [= <-]; apply tidy_set; exact T.
Qed.
Lemma tidy_remove k d p d' : tidy d -> remove_file k d p = Some d' -> tidy d'.
Proof.
  unfold remove_file. intros T. destruct (last_name p); [|discriminate]. destruct (resolve k d (removelast p)) as [q| | |]; try discriminate.
  destruct (node_at d q) as [[]|]; try discriminate. destruct (node_at d (q ++ [s])) as [[]|]; try discriminate; intros [= <-]; apply tidy_unset; exact T.
Qed.
Lemma tidy_mkdir k d p d' : tidy d -> mkdir k d p = Made d' -> tidy d'.
Proof.
  unfold mkdir. intros T. destruct (last_name p); [|discriminate]. destruct (resolve k d (removelast p)) as [q| | |]; try discriminate.
  destruct (node_at d q) as [[]|]; try discriminate. destruct (node_at d (q ++ [s])) as [[]|]; try discriminate; intros [= <-]; apply tidy_set; exact T.
Qed.
Lemma tidy_create n : forall k d p d' b, tidy d -> create_dir_all n k d p = (d', b) -> tidy d'.
Proof.
  induction n as [|n IH]; intros k d p d' b T H; cbn [create_dir_all] in H; [injection H as <- <-; exact T|].
  destruct (mkdir k d p) as [d1| |] eqn:M.
  - injection H as <- <-. eapply tidy_mkdir; eauto.
  - destruct (parent p) as [q|]; [|injection H as <- <-; exact T]. destruct (create_dir_all n k d q) as [d1 b1] eqn:C.
    pose proof (IH _ _ _ _ _ T C) as T1. destruct b1; [|injection H as <- <-; exact T1].
    destruct (mkdir k d1 p) as [d2| |] eqn:M2; injection H as <- <-; auto. eapply tidy_mkdir; eauto.
  - injection H as <- <-. exact T.
Qed.
Lemma tidy_write_file c d rel s d' ok : tidy d -> write_source_file c d rel s = (d', ok) -> tidy d'.
Proof.
  unfold write_source_file. intros T. destruct (negb _); [intros [= <- <-]; exact T|]. destruct (to_absolute_path c d rel) as [p|]; [|intros [= <- <-]; exact T].
  destruct (match parent p with Some q => _ | None => _ end) as [d1 b1] eqn:E.
  assert (T1 : tidy d1) by (destruct (parent p); [eapply tidy_create; eauto|injection E as <- <-; exact T]).
  destruct b1; [|intros [= <- <-]; exact T1]. destruct (write (c_links c) d1 p s) as [d2|] eqn:W; intros [= <- <-]; auto. eapply tidy_write; eauto.
Qed.
Lemma tidy_write_source c d st rel s force d' st' a : tidy d -> write_source c d st rel s force = (d', st', a) -> tidy d'.
Proof.
  unfold write_source, validate_and_write. intros T. destruct (c_parse c s) as [ps|]; [|intros [= <- _ _]; exact T].
  destruct (ps_error ps); [intros [= <- _ _]; exact T|]. destruct (write_source_file c d rel s) as [d1 ok] eqn:W.
  pose proof (tidy_write_file _ _ _ _ _ _ T W) as T1. destruct ok; [|intros [= <- _ _]; exact T1]. unfold finish_write.
  destruct (rebuild c d1); try (intros [= <- _ _]; exact T1). destruct force; [intros [= <- _ _]; exact T1|].
  unfold rollback_write. destruct (read_text (c_links c) d (join_path (c_ws c) rel)) as [o|].
  - destruct (write (c_links c) d1 (join_path (c_ws c) rel) o) as [d2|] eqn:W2; intros [= <- _ _]; auto. eapply tidy_write; eauto.
  - destruct (remove_file (c_links c) d1 (join_path (c_ws c) rel)) as [d2|] eqn:W2; intros [= <- _ _]; auto. eapply tidy_remove; eauto.
Qed.

(** ** What stays so *)
Lemma text_dirs w d d1 : only_dirs_added d d1 -> all_text_in w d -> all_text_in w d1.
Proof. intros X A p s I E. destruct (X p) as [Q|[_ Q]]; [|congruence]. apply (A p s I). congruence. Qed.
Lemma text_set w d q s : all_text_in w d -> q <> [] -> is_text s = true -> all_text_in w (set_node d q (File s)).
Proof.
  intros A NE T p t I. rewrite node_set by exact NE. destruct (place_eqb q p); [intros [= <-]; exact T|]. apply A. exact I.
Qed.
Lemma ordinary_dirs c w d d1 : ordinary c w d -> only_dirs_added d d1 -> sound d1 -> tidy d1 -> ordinary c w d1.
Proof. intros (A & B & C & D) X S T. split; [eapply runs_dirs; eauto|]. split; [eapply links_dirs; eauto|]. split; [exact T|eapply text_dirs; eauto]. Qed.
Lemma ordinary_set c w d q old s : ordinary c w d -> node_at d q = Some (File old) -> is_text s = true -> ordinary c w (set_node d q (File s)).
Proof.
  intros (A & B & C & D) F T. pose proof (file_not_root d q old F) as NE. pose proof A as (S & _).
  split; [apply runs_set; eauto using sound_file|]. split; [apply links_set; auto|]. split; [apply tidy_set; exact C|apply text_set; auto].
Qed.
Lemma ordinary_unset c w d q old : ordinary c w d -> node_at d q = Some (File old) -> ordinary c w (unset_node d q).
Proof.
  intros (A & B & C & D) F. pose proof (file_not_root d q old F) as NE. pose proof A as (S & SL & W & Dw).
  assert (U : forall p, node_at (unset_node d q) p = if place_eqb q p then None else node_at d p) by (intros p; apply node_unset; exact NE).
  assert (NQ : place_eqb q w = false) by (apply place_eqb_neq; congruence).
  split; [|split; [|split; [apply tidy_unset; exact C|]]].
  - split; [apply sound_unset; auto; congruence|]. split; [exact SL|]. split; [|rewrite U, NQ; exact Dw].
    unfold resolve in *. rewrite (walk_removed d q old (c_links c) [] (c_ws c) w S NE F ltac:(discriminate) ltac:(congruence) W).
    destruct (place_eqb w q) eqn:Q; [apply place_eqb_eq in Q; congruence|reflexivity].
  - intros p t I. rewrite U. destruct (place_eqb q p); [discriminate|]. apply B. exact I.
  - intros p s I. rewrite U. destruct (place_eqb q p); [discriminate|]. apply D. exact I.
Qed.
Lemma same_dirs d d' : same d d' -> only_dirs_added d d'.
Proof. intros H p. left. apply H. Qed.
Lemma same_sound d d' : same d d' -> sound d -> sound d'.
Proof. intros H S p c. rewrite !H. apply S. Qed.

(** One request. *)
Lemma ordinary_step c w d st r d' st' a : ordinary c w d -> ordinary_request r -> handle c d st r = (d', st', a) -> a <> Crashed ->
  ordinary c w d' /\ (rebuild c d' = Ok st' \/ (st' = st /\ only_dirs_added d d')).
Proof.
  intros O R H NC. pose proof O as (RI & NL & T & TX). pose proof RI as (S & SL & W & D). destruct r as [rel content force|rel old new all force|rel force|]; cbn [handle ordinary_request] in *.
  - destruct R as (P & TC & ->). assert (U : unlinked c d w rel) by (right; auto).
    assert (TT : target_is_text c d w rel) by (intros q s _ I F; eapply TX; eauto).
    assert (T' : tidy d') by (eapply tidy_write_source; eauto).
    destruct a as [| | |b|]; [| |destruct (rejected_write _ _ _ _ _ _ _ _ _ _ RI U TT H (or_introl eq_refl)) as (-> & X & S' & _)
       |destruct (rejected_write _ _ _ _ _ _ _ _ _ _ RI U TT H (or_intror (ex_intro _ b eq_refl))) as (-> & X & S' & _)|congruence].
    + unfold write_source, validate_and_write in H. destruct (c_parse c content) as [ps|]; [|discriminate]. destruct (ps_error ps); [discriminate|].
      destruct (write_source_file c d rel content) as [d1 ok] eqn:Wr.
      destruct (write_file_spec c d w rel content d1 ok RI Wr) as [(-> & _)|(-> & EW & K)]; [discriminate|]. unfold finish_write in H.
      destruct (rebuild c d1) as [s|e|] eqn:RB; [|destruct (rollback_write c d1 rel _) as [? ?]; discriminate|discriminate].
      injection H as <- <-. split; [|auto]. destruct K as [(q & old & _ & _ & F & ->)|K]; [eapply ordinary_set; eauto|].
      destruct (wrote_new_vacant c d d1 w rel content RI U EW K) as (d2 & p & r & n & X & SX & _ & PN & _ & Dr & Nq & -> & _).
      assert (NE : r ++ [n] <> []) by (destruct r; discriminate).
      split; [apply runs_set; [eapply runs_dirs; eauto|auto|apply sound_add; auto]|]. split; [apply links_set; [eapply links_dirs; eauto|exact NE]|].
      split; [exact T'|]. apply text_set; auto. eapply text_dirs; eauto.
    + exfalso. unfold write_source, validate_and_write in H. destruct (c_parse c content) as [ps|]; [|discriminate]. destruct (ps_error ps); [discriminate|].
      destruct (write_source_file c d rel content) as [d1 [|]]; [|discriminate]. unfold finish_write in H.
      destruct (rebuild c d1); try discriminate. destruct (rollback_write c d1 rel _); discriminate.
    + split; [eapply ordinary_dirs; eauto|auto].
    + split; [eapply ordinary_dirs; eauto|auto].
  - destruct R as (P & TO & TN & ->).
    destruct (replace_effect c d w st rel old new all false d' st' a RI H) as [(-> & -> & _)|(q & text & content & n & Rq & I & F & TT & RP & NE & -> & A)].
    + split; [exact O|right; split; [reflexivity|apply dirs_refl]].
    + pose proof (replaced_text text old new all content n NE TT TO TN RP) as TC. split; [eapply ordinary_set; eauto|].
      destruct a as [| | |b|]; try contradiction; try congruence; [auto|]. destruct A as (-> & e & RB). exfalso.
      unfold replace_source in H. destruct (replace_in_file c d rel old new all) as [| |content' n']; try discriminate.
      unfold write_source, validate_and_write in H. destruct (c_parse c content') as [ps|]; [|discriminate]. destruct (ps_error ps); [discriminate|].
      destruct (write_source_file c d rel content') as [d1 [|]]; [|discriminate]. unfold finish_write in H.
      destruct (rebuild c d1); try discriminate. destruct (rollback_write c d1 rel _); discriminate.
  - destruct R as (P & ->). unfold delete_source in H. destruct (delete_file c d rel) as [[d1 content]|] eqn:DF.
    + destruct (rollback_deleted c d w rel d1 content RI DF) as (q & Rq & I & F & TC & -> & _ & RB). rewrite RB in H.
      pose proof (put_back d q content F) as PB.
      destruct (rebuild c (unset_node d q)) as [s|e|] eqn:B; injection H as <- <- <-; [|split|congruence].
      * split; [eapply ordinary_unset; eauto|auto].
      * eapply ordinary_dirs; eauto using same_dirs, same_sound. apply tidy_set, tidy_unset. exact T.
      * right. split; [reflexivity|]. apply same_dirs. exact PB.
    + injection H as <- <- <-. split; [exact O|right; split; [reflexivity|apply dirs_refl]].
  - unfold build_tool in H. destruct (rebuild c d) eqn:B; injection H as <- <- <-; [auto| |congruence].
    split; [exact O|right; split; [reflexivity|apply dirs_refl]].
Qed.
Lemma ordinary_serve c w rs : forall d st d' st' l d0, ordinary c w d -> Forall ordinary_request rs -> serve c d st rs = (d', st', l) -> ~ In Crashed l ->
  ordinary c w d0 -> rebuild c d0 = Ok st -> only_dirs_added d0 d ->
  ordinary c w d' /\ exists d1, ordinary c w d1 /\ rebuild c d1 = Ok st' /\ only_dirs_added d1 d'.
Proof.
  induction rs as [|r rs IH]; intros d st d' st' l d0 O F H NC O0 B X; cbn [serve] in H.
  - injection H as <- <- <-. eauto.
  - inversion F as [|? ? F1 F2]; subst. destruct (handle c d st r) as [[d1 st1] a] eqn:Hd. destruct (serve c d1 st1 rs) as [[d2 st2] l2] eqn:Sv.
    injection H as <- <- <-. destruct (ordinary_step c w d st r d1 st1 a O F1 Hd) as (O1 & Q); [intros ->; apply NC; left; reflexivity|].
    assert (N2 : ~ In Crashed l2) by (intros I; apply NC; right; exact I). destruct Q as [Q|(-> & Q)].
    + apply (IH d1 st1 d2 st2 l2 d1); auto using dirs_refl.
    + apply (IH d1 st d2 st2 l2 d0); auto. eapply dirs_trans; eauto.
Qed.

(** ** Loading what has the same files *)
Lemma source_dirs w d d1 r s : only_dirs_added d d1 -> (source_of w d1 r s <-> source_of w d r s).
Proof.
  intros X. unfold source_of. destruct (X (w ++ r)) as [->|[E1 E2]]; [reflexivity|]. rewrite E1, E2. split; intros (A & _); discriminate.
Qed.
Lemma load_dirs c d d1 w fs : ordinary c w d -> ordinary c w d1 -> only_dirs_added d d1 -> load_directory c d = Ok fs ->
  exists fs1, load_directory c d1 = Ok fs1 /\ Permutation fs fs1.
Proof.
  intros (A & B & T & _) (A1 & B1 & T1 & _) X H. destruct (load_directory_spec c d w fs A B T H) as (N & I & R).
  destruct (load_directory_success c d1 w A1 B1) as (fs1 & H1).
  { intros r s SO. apply (R r s). apply (source_dirs w d d1 r s X). exact SO. }
  exists fs1. split; [exact H1|]. destruct (load_directory_spec c d1 w fs1 A1 B1 T1 H1) as (N1 & I1 & _).
  apply NoDup_Permutation; [eapply NoDup_map_inv; exact N|eapply NoDup_map_inv; exact N1|].
  intros e. rewrite I, I1. split; intros (r & s & ps & SO & Q); exists r, s, ps; (split; [|exact Q]); apply (source_dirs w d d1 r s X); exact SO.
Qed.
Lemma rebuild_files c d st : rebuild c d = Ok st -> exists fs, load_directory c d = Ok fs /\ st_files st = c_files c fs /\
  load_graph (c_env c) (c_fields c) (c_schemas c) (st_files st) = Ok (st_build st, st_graph st).
Proof.
  unfold rebuild. destruct (load_directory c d) as [fs|e|]; try discriminate. cbn [omap_err obind].
  destruct (load_graph (c_env c) (c_fields c) (c_schemas c) (c_files c fs)) as [[b g]|e|] eqn:E; try discriminate. cbn [obind fst snd].
  intros [= <-]. exists fs. cbn [st_files st_build st_graph]. auto.
Qed.
Lemma handle_state c d st r d1 st1 a : handle c d st r = (d1, st1, a) -> st1 = st \/ rebuild c d1 = Ok st1.
Proof.
  assert (Wr : forall rel content force d1 st1 a, write_source c d st rel content force = (d1, st1, a) -> st1 = st \/ rebuild c d1 = Ok st1).
  { intros rel content force d2 st2 a2. unfold write_source. destruct (validate_and_write c d rel content) as [d3 [o|]]; [|intros [= _ <- _]; auto].
    unfold finish_write. destruct (rebuild c d3) eqn:B; [intros [= <- <- _]; auto| |intros [= _ <- _]; auto].
    destruct force; [intros [= _ <- _]; auto|]. destruct (rollback_write c d3 rel o). intros [= _ <- _]. auto. }
  destruct r as [rel content force|rel old new all force|rel force|]; cbn [handle].
  - apply Wr.
  - unfold replace_source. destruct (replace_in_file c d rel old new all); [intros [= _ <- _]; auto|intros [= _ <- _]; auto|apply Wr].
  - unfold delete_source. destruct (delete_file c d rel) as [[d3 s]|]; [|intros [= _ <- _]; auto].
    destruct (rebuild c d3) eqn:B; [intros [= <- <- _]; auto| |intros [= _ <- _]; auto].
    destruct force; [intros [= _ <- _]; auto|]. destruct (rollback_delete c d3 rel s). intros [= _ <- _]. auto.
  - unfold build_tool. destruct (rebuild c d) eqn:B; intros [= <- <- _]; auto.
Qed.
Lemma served_was_built c d st rs d' st' l : rebuild c d = Ok st -> serve c d st rs = (d', st', l) ->
  exists before after d1 st1 l1, rs = before ++ after /\ serve c d st before = (d1, st1, l1) /\ rebuild c d1 = Ok st'.
Proof.
  intros B. assert (G : forall rs d1 st1 d' st' l, serve c d1 st1 rs = (d', st', l) ->
    st' = st1 \/ exists before after d2 st2 l2, rs = before ++ after /\ serve c d1 st1 before = (d2, st2, l2) /\ rebuild c d2 = Ok st').
  { clear. induction rs as [|r rs IH]; intros d1 st1 d' st' l H; cbn [serve] in H; [injection H as <- <- <-; auto|].
    destruct (handle c d1 st1 r) as [[d2 st2] a] eqn:Hd. destruct (serve c d2 st2 rs) as [[d3 st3] l3] eqn:Sv. injection H as <- <- <-.
    destruct (IH _ _ _ _ _ Sv) as [->|(bf & af & d4 & st4 & l4 & -> & S4 & B4)].
    - destruct (handle_state c d1 st1 r d2 st2 a Hd) as [->|B2]; [auto|]. right. exists [r], rs, d2, st2, [a]. cbn [app serve]. rewrite Hd. auto.
    - right. exists (r :: bf), af, d4, st4, (a :: l4). cbn [app serve]. rewrite Hd, S4. auto. }
  intros H. destruct (G rs d st d' st' l H) as [->|X]; [|exact X]. exists [], rs, d, st, []. auto.
Qed.
