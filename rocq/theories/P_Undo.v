(** C85: an edit made through the tool server can be taken back. *)
From Coq Require Import Lia Permutation.
From Verif Require Import S_Graph S_Query L_Graph L_Exec L_Laws P_Query P_Spread.
From Verif Require Import S_Life S_Undo L_Str L_Text L_Ids L_Fs L_Load L_Server L_History L_Broken L_Life L_Spread L_Undo.
From Verif Require Import P_Schema P_Dsl P_Workspace P_Server P_Tree.
From Verif Require Import M_Fs M_Dsl S_Undo.
Close Scope Z_scope.

(** After a successful write, replacement or deletion of a source file, forced or
    not, the request that writes the former text back, or that deletes the file
    if there was none, is accepted without force. It leaves every file with the
    text it had, and the schemas, entities and answers are those of before. *)
Theorem C85_edit_can_be_undone : forall c w d st r d1 st1 a, shuffles (c_fields c) -> (forall l, Permutation (c_schemas c l) l) -> (forall l, Permutation (c_files c l) l) ->
  ordinary c w d -> (forall p s, source_of w d p s -> error_free c s) -> rebuild c d = M_Text.Ok st -> plain_request r -> of_source r ->
  handle c d st r = (d1, st1, a) -> a = Accepted \/ a = Forced ->
  exists d2 st2, handle c d1 st1 (undo c d r) = (d2, st2, Accepted) /\ only_dirs_added d d2 /\ as_before st st2.
Proof.
  intros c w d st r d1 st1 a SH PS PC O CE RB R SO H A. destruct (still_clear c w d st r d1 st1 a O CE R H) as [O1 _].
  destruct (undone c w d st r d1 st1 a st d1 SH PS PC O CE RB R SO H A O1 (dirs_refl d1)) with (st' := st1) as (d2 & st2 & H2 & X & _ & AB & _); [|exists d2, st2; auto].
  unfold spot_kept. destruct (edited r); [|exact Logic.I]. reflexivity.
Qed.
Print Assumptions C85_edit_can_be_undone.

(** A whole series of accepted edits can be taken back, one by one, the last
    first, provided it leaves no directory that is named like a source file. *)
Theorem C85_series_can_be_undone : forall c w rs d st d1 st1 l, shuffles (c_fields c) -> (forall l, Permutation (c_schemas c l) l) -> (forall l, Permutation (c_files c l) l) ->
  ordinary c w d -> (forall p s, source_of w d p s -> error_free c s) -> rebuild c d = M_Text.Ok st -> Forall plain_request rs -> Forall of_source rs ->
  serve c d st rs = (d1, st1, l) -> Forall (eq Accepted) l -> no_firm_dirs w d1 ->
  exists d2 st2 l2, serve c d1 st1 (undo_all c d st rs) = (d2, st2, l2) /\ Forall (eq Accepted) l2 /\ only_dirs_added d d2 /\ as_before st st2.
Proof.
  intros c w rs d st d1 st1 l SH PS PC O CE RB R SO H A ND. destruct rs as [|r rs].
  - cbn [serve undo_all] in *. injection H as <- <- <-. exists d, st, []. split; [reflexivity|]. split; [constructor|]. split; [apply dirs_refl|]. split; [reflexivity|]. split; reflexivity.
  - destruct (all_undone c w (r :: rs) SH PS PC d st d1 st1 l st O CE RB R SO H A ND st1) as (d2 & st2 & l2 & Sv & A2 & X & _ & AB & _). exists d2, st2, l2. split; [exact Sv|]. split; [exact A2|]. split; [exact X|]. apply AB. discriminate.
Qed.
Print Assumptions C85_series_can_be_undone.

(** Every query then answers as before the edits. *)
Theorem C85_queries_as_before : forall c d d2 st st2, rebuild c d = M_Text.Ok st -> rebuild c d2 = M_Text.Ok st2 -> as_before st st2 ->
  forall x ho ho' s ops, orders ho -> orders ho' -> no_limit ops ->
  same_entities (execute x (st_graph st) ho {| q_from := s; q_ops := ops; q_agg := None |})
                (execute x (st_graph st2) ho' {| q_from := s; q_ops := ops; q_agg := None |}).
Proof.
  intros c d d2 st st2 RB RB2 (_ & P & _) x ho ho' s ops O O' NL.
  exact (execute_two x _ _ _ _ (proj1 (rebuilt_graph c d st RB)) (proj1 (rebuilt_graph c d2 st2 RB2)) (Permutation_sym P) ho ho' O O' s ops NL).
Qed.
Print Assumptions C85_queries_as_before.

(** It is not so without the condition on the texts: a file whose text has a
    syntax error can be written over, and not be written back. *)
Theorem C85_broken_source_comes_back_refuted : exists c w d st r d1 st1, ordinary c w d /\ rebuild c d = M_Text.Ok st /\ plain_request r /\ of_source r /\
  handle c d st r = (d1, st1, Accepted) /\ handle c d1 st1 (undo c d r) = (d1, st1, Refused) /\ ~ only_dirs_added d d1.
Proof.
  exists c_broken, w0, d_broken. eexists. exists (Write (L "jo.firm") (L "jane") false). eexists. eexists. split; [exact broken_ordinary|]. split; [vm_compute; reflexivity|].
  split; [repeat split; reflexivity|]. split; [exists [], (L "jo.firm"); split; [reflexivity|]; exists (L "jo"); split; [discriminate|reflexivity]|].
  split; [vm_compute; reflexivity|]. split; [vm_compute; reflexivity|].
  intros X. destruct (X [L "w"; L "jo.firm"]) as [Y|[Y _]]; vm_compute in Y; discriminate Y.
Qed.
Print Assumptions C85_broken_source_comes_back_refuted.
(** Nor without the condition on the directories: after the deletion of a file
    and the addition of one in a directory of the same name, the former
    cannot be restored. *)
Definition name_taken : list request := [Delete (L "b.firm") false; Write (L "b.firm/x.firm") (L "jane") false].
Theorem C85_taken_name_comes_back_refuted : exists c w d st rs d1 st1 d2 st2 l, ordinary c w d /\ rebuild c d = M_Text.Ok st /\ Forall plain_request rs /\ Forall of_source rs /\
  serve c d st rs = (d1, st1, [Accepted; Accepted]) /\ serve c d1 st1 (undo_all c d st rs) = (d2, st2, l) /\ In Refused l /\ ~ only_dirs_added d d2.
Proof.
  exists c0, w0, d0, st0, name_taken. eexists. eexists. eexists. eexists. eexists. split; [exact d0_ordinary|]. split; [vm_compute; reflexivity|].
  split; [repeat (apply Forall_cons || apply Forall_nil); repeat split; reflexivity|].
  split; [repeat apply Forall_cons; try apply Forall_nil; [exists [], (L "b.firm"); split; [reflexivity|]; exists (L "b"); split; [discriminate|reflexivity]
         |exists [L "b.firm"], (L "x.firm"); split; [reflexivity|]; exists (L "x"); split; [discriminate|reflexivity]]|].
  split; [vm_compute; reflexivity|]. split; [vm_compute; reflexivity|]. split; [vm_compute; auto|].
  intros X. destruct (X [L "w"; L "b.firm"]) as [Y|[Y _]]; vm_compute in Y; discriminate Y.
Qed.
Print Assumptions C85_taken_name_comes_back_refuted.

Lemma no_firm_dirs_list w d : w <> [] -> Forall (fun e => snd e = Dir -> length (last (fst e) []) < 6) d -> no_firm_dirs w d.
Proof.
  intros W F dir n (x & X & N) E. assert (Q : exists a p, w ++ dir ++ [n] = a :: p) by (destruct w; [congruence|eexists; eexists; reflexivity]).
  destruct Q as (a & p & Q). rewrite Q in E. cbn [node_at] in E. assert (I : In (a :: p, Dir) d).
  { revert E. clear. induction d as [|[q m] d IH]; cbn [entry_at]; [discriminate|]. destruct (place_eqb q (a :: p)) eqn:B; [intros [= ->]; apply place_eqb_eq in B; subst q; left; reflexivity|intros E; right; auto]. }
  eapply Forall_forall in F; [|exact I]. cbn [fst snd] in F. specialize (F eq_refl). rewrite <- Q, app_assoc, last_last, N, app_length in F. destruct x; [congruence|]. cbn [length] in F. change (length (L ".firm")) with 5 in F. lia.
Qed.
(** A new file in a new directory, and a deletion, taken back. *)
Example C85_case : ordinary c0 w0 d0 /\ (forall p s, source_of w0 d0 p s -> error_free c0 s) /\ rebuild c0 d0 = M_Text.Ok st0 /\
  Forall plain_request [Write (L "deep/j.firm") (L "jane") false; Delete (L "b.firm") false] /\ Forall of_source [Write (L "deep/j.firm") (L "jane") false; Delete (L "b.firm") false] /\
  exists d1 st1, serve c0 d0 st0 [Write (L "deep/j.firm") (L "jane") false; Delete (L "b.firm") false] = (d1, st1, [Accepted; Accepted]) /\ no_firm_dirs w0 d1 /\
    undo_all c0 d0 st0 [Write (L "deep/j.firm") (L "jane") false; Delete (L "b.firm") false] = [Write (L "b.firm") (L "acme") false; Delete (L "deep/j.firm") false].
Proof.
  split; [exact d0_ordinary|]. split; [|split; [vm_compute; reflexivity|]].
  - intros r s (N & _). unfold w0 in N. cbn [app node_at] in N. unfold d0 in N. cbn [entry_at] in N.
    repeat (match type of N with context [place_eqb ?x ?y] => destruct (place_eqb x y) end; [injection N as <- || discriminate; eexists; split; vm_compute; reflexivity|]). discriminate.
  - split; [repeat (apply Forall_cons || apply Forall_nil); repeat split; reflexivity|].
    split; [repeat apply Forall_cons; try apply Forall_nil; [exists [L "deep"], (L "j.firm"); split; [reflexivity|]; exists (L "j"); split; [discriminate|reflexivity]
           |exists [], (L "b.firm"); split; [reflexivity|]; exists (L "b"); split; [discriminate|reflexivity]]|].
    eexists. eexists. split; [vm_compute; reflexivity|]. split; [|vm_compute; reflexivity].
    apply no_firm_dirs_list; [discriminate|]. repeat (apply Forall_cons || apply Forall_nil); cbn [fst snd]; intros K; try discriminate K; vm_compute; lia.
Qed.
