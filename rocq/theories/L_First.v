(** Lemmas for the first entity of a type. *)
From Coq Require Import Lia.
From Verif Require Import S_Graph L_Graph.
From Verif Require Import S_First L_Str L_Text L_Fs L_Server L_Load L_History L_Add L_Save L_Cli.
From Verif Require Import M_Fs.

Lemma walk_app d k cur p1 p2 r : walk k d cur p1 = At r -> exists k', walk k d cur (p1 ++ p2) = walk k' d r p2.
Proof.
  revert k cur p1. apply (lex_ind (fun k cur p1 => walk k d cur p1 = At r -> exists k', walk k d cur (p1 ++ p2) = walk k' d r p2)).
  intros k cur p IHk IHp H. destruct p as [|c p]; [rewrite walk_nil in H; injection H as <-; exists k; reflexivity|].
  cbn [app]. rewrite walk_cons in *. destruct (node_at d cur) as [[]|]; try discriminate.
  destruct (stays c); [apply IHp; cbn [length]; auto|]. destruct (climbs c); [apply IHp; cbn [length]; auto|].
  destruct (node_at d (cur ++ [c])) as [m|]; [|destruct p; discriminate].
  destruct m as [s| |t]; [apply IHp; cbn [length]; auto..|]. destruct k as [|k]; [discriminate|]. rewrite app_assoc. apply IHk; auto.
Qed.
Lemma file_word_name t : file_word t -> proper_name (t ++ L ".firm") /\ stays (t ++ L ".firm") = false /\ climbs (t ++ L ".firm") = false.
Proof.
  intros (A & B & C). assert (P : proper_name (t ++ L ".firm")).
  { destruct t as [|y t]; [congruence|]. split; [discriminate|]. split; [intros E; injection E as E _; apply C; left; auto|].
    split; [intros E; injection E as E _; apply C; left; auto|]. intros I. apply in_app_iff in I as [I|I]; [exact (B I)|]. cbn in I. intuition discriminate. }
  split; [exact P|]. apply proper_go, P.
Qed.
Lemma parent_default p n : stays n = false -> parent (p ++ [L "generated"; n]) = Some (p ++ [L "generated"]).
Proof.
  intros S1. unfold parent. change (p ++ [L "generated"; n]) with (p ++ [L "generated"] ++ [n]). rewrite app_assoc, !rev_app_distr.
  cbn [rev app drop_stays]. rewrite S1. change (stays (L "generated")) with false. cbv iota. f_equal. exact (rev_involutive (p ++ [L "generated"])) || (change (rev (L "generated" :: rev p) = p ++ [L "generated"]); cbn [rev]; rewrite rev_involutive; reflexivity).
Qed.
Lemma default_made c d w t : runs_in c d w -> file_word t -> none_generated w t d ->
  exists d1, create_dir_all (S (length (c_ws c ++ [L "generated"]))) (c_links c) d (c_ws c ++ [L "generated"]) = (d1, true) /\
    resolve (c_links c) d1 (c_ws c ++ [L "generated"; t ++ L ".firm"]) = Vacant (default_file w t) /\
    forall text, generated_with w t text d (set_node d1 (default_file w t) (File text)).
Proof.
  intros (SD & SW & RW & DW) FW (G1 & G2). destruct (file_word_name t FW) as (PN & S1 & C1).
  assert (NG : default_dir w <> []) by (unfold default_dir; destruct w; discriminate).
  assert (NF : default_file w t <> []) by (unfold default_file; destruct w; discriminate).
  assert (DF : default_file w t <> default_dir w).
  { unfold default_file, default_dir. intros E. apply app_inv_head in E. discriminate. }
  assert (K : forall d1, resolve (c_links c) d1 (c_ws c) = At w -> node_at d1 w = Some Dir -> node_at d1 (default_dir w) = Some Dir -> node_at d1 (default_file w t) = None ->
    resolve (c_links c) d1 (c_ws c ++ [L "generated"]) = At (default_dir w) /\
    resolve (c_links c) d1 (c_ws c ++ [L "generated"; t ++ L ".firm"]) = Vacant (default_file w t)).
  { intros d1 R D1 D2 D3. unfold resolve in *. split.
    - destruct (walk_app d1 _ _ _ [L "generated"] _ R) as (k & ->). rewrite walk_cons, D1. change (stays (L "generated")) with false. change (climbs (L "generated")) with false.
      cbv iota. change (w ++ [L "generated"]) with (default_dir w). rewrite D2, walk_nil. reflexivity.
    - destruct (walk_app d1 _ _ _ [L "generated"; t ++ L ".firm"] _ R) as (k & ->). rewrite walk_cons, D1. change (stays (L "generated")) with false. change (climbs (L "generated")) with false.
      cbv iota. change (w ++ [L "generated"]) with (default_dir w). rewrite D2, walk_cons, D2, S1, C1.
      assert (EQ : default_dir w ++ [t ++ L ".firm"] = default_file w t) by (unfold default_dir, default_file; rewrite <- app_assoc; reflexivity).
      rewrite <- EQ in *. cbv iota. match goal with |- context [node_at d1 ?p] => change (node_at d1 p) with (node_at d1 (default_dir w ++ [t ++ L ".firm"])) end. rewrite D3. reflexivity. }
  destruct G1 as [G1|G1].
  - exists (set_node d (default_dir w) Dir). split; [|split].
    + cbn [create_dir_all]. unfold mkdir, last_name. rewrite rev_app_distr. cbn [rev app]. change (stays (L "generated") || climbs (L "generated")) with false.
      cbv iota. rewrite removelast_last, RW, DW. change (w ++ [L "generated"]) with (default_dir w). rewrite G1. reflexivity.
    + assert (X : extends d (set_node d (default_dir w) Dir)).
      { intros p n H. rewrite node_set by exact NG. destruct (place_eqb (default_dir w) p) eqn:E; [|exact H]. apply place_eqb_eq in E. congruence. }
      apply K; [|apply X, DW|apply node_set_same, NG|rewrite node_set_other; auto].
      unfold resolve in *. rewrite (walk_extends d _ _ _ _ X SD) by (try discriminate; eauto). exact RW.
    + intros text. split; [apply node_set_same, NF|]. split; [rewrite node_set_other by auto; apply node_set_same, NG|].
      intros p A B. rewrite !node_set_other; auto.
  - destruct (K d RW DW G1 G2) as [R1 R2]. exists d. split; [|split; [exact R2|]].
    + apply create_existing; [exact SD|]. unfold is_dir, stat. rewrite R1, G1. reflexivity.
    + intros text. split; [apply node_set_same, NF|]. split; [rewrite node_set_other by auto; exact G1|]. intros p A B. apply node_set_other; auto.
Qed.
Lemma write_first c d w t dsl : runs_in c d w -> file_word t -> none_generated w t d ->
  exists d', write_dsl c d (c_ws c ++ [L "generated"; t ++ L ".firm"]) dsl = (d', true) /\ generated_with w t dsl d d'.
Proof.
  intros RI FW NG. destruct (default_made c d w t RI FW NG) as (d1 & M & R & K). destruct (file_word_name t FW) as (_ & S1 & _).
  unfold write_dsl. rewrite (parent_default _ _ S1). match goal with |- context [create_dir_all ?n ?k ?a ?b] => change (create_dir_all n k a b) with (create_dir_all (S (length (c_ws c ++ [L "generated"]))) (c_links c) d (c_ws c ++ [L "generated"])) end.
  rewrite M. unfold append_to. rewrite R. eauto.
Qed.
Lemma append_first c d w t dsl : runs_in c d w -> file_word t -> none_generated w t d ->
  exists d', append_block c d (c_ws c ++ [L "generated"; t ++ L ".firm"]) dsl = (d', true) /\ generated_with w t dsl d d'.
Proof.
  intros RI FW NG. destruct (default_made c d w t RI FW NG) as (d1 & M & R & K). destruct (file_word_name t FW) as (_ & S1 & _).
  unfold append_block. rewrite (parent_default _ _ S1). match goal with |- context [create_dir_all ?n ?k ?a ?b] => change (create_dir_all n k a b) with (create_dir_all (S (length (c_ws c ++ [L "generated"]))) (c_links c) d (c_ws c ++ [L "generated"])) end.
  rewrite M. unfold path_exists, append_to. rewrite R. cbn [app]. eauto.
Qed.
