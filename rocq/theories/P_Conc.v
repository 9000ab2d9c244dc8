(** Overlapping requests: C41. *)
From Coq Require Import Lia.
From Verif Require Import S_Graph L_Graph.
From Verif Require Import S_Conc L_Str L_Text L_Fs L_Server L_Load L_History L_Workspace L_Add L_Conc P_Graph P_Dsl P_Schema P_Workspace P_Server P_Add.
Close Scope Z_scope.

(** ** C41 *)
(** Taken one by one, the steps are the tools of the server. *)
Theorem C41_one_by_one : forall c ae d st ks d' st' l, in_turn c ae d st ks = (d', st', l) ->
  let s := runs c ae (begin d st ks) (one_by_one (length ks)) in sy_disk s = d' /\ sy_state s = st' /\ answered s l.
Proof. intros c ae d st ks d' st' l H. pose proof (serial c ae ks d st [] d' st' l H) as S. cbn [map app length] in S. cbn zeta. unfold begin, one_by_one, answered. rewrite S. auto. Qed.
Print Assumptions C41_one_by_one.
(** Whatever the order of the steps, four turns are enough for every request. *)
Theorem C41_every_request_is_answered : forall c ae d st ks sched, (forall i, i < length ks -> 4 <= count_occ Nat.eq_dec sched i) ->
  exists l, length l = length ks /\ answered (runs c ae (begin d st ks) sched) l.
Proof. exact all_end. Qed.
Print Assumptions C41_every_request_is_answered.
(** What is served was built from what the disk held at some moment. *)
Theorem C41_served_was_built : forall c ae d st ks sched, rebuild c d = Ok st ->
  exists before after, sched = before ++ after /\
    rebuild c (sy_disk (runs c ae (begin d st ks) before)) = Ok (sy_state (runs c ae (begin d st ks) sched)).
Proof.
  intros c ae d st ks sched B. destruct (state_was_built c ae (begin d st ks) sched) as [E|H]; [|exact H]. exists [], sched. split; [reflexivity|].
  rewrite E. exact B.
Qed.
Print Assumptions C41_served_was_built.
(** If no build fails, what is served when all requests have ended is what the
    disk holds then. *)
Theorem C41_served_is_the_disk_if_no_build_fails : forall c ae d w st ks sched l, runs_in c d w -> no_links_in w d -> Forall plain_task ks -> rebuild c d = Ok st ->
  let s := runs c ae (begin d st ks) sched in answered s l -> smooth l ->
  exists before after, sched = before ++ after /\ let d1 := sy_disk (runs c ae (begin d st ks) before) in
    rebuild c d1 = Ok (sy_state s) /\ only_dirs_added d1 (sy_disk s).
Proof.
  intros c ae d w st ks sched l RI NL F B s An SM. destruct (good_runs c ae w d st ks sched RI NL F B) as (_ & Z). fold s in Z.
  destruct Z as [(ph & I & Bp)|(_ & _ & [(ph & I & P)|Z])]; [| |exact Z]; destruct (smooth_good s l An SM ph I); contradiction.
Qed.
Print Assumptions C41_served_is_the_disk_if_no_build_fails.
(** Nor is an acknowledged edit lost then: the file is what the edit made of it,
    unless another edit of it that was acknowledged was made later. *)
Theorem C41_last_edit_stands_if_no_build_fails : forall c ae d w st ks sched l i k rel, ordinary c w d -> Forall plain_edit ks ->
  let s0 := begin d st ks in let s := runs c ae s0 sched in answered s l -> smooth l ->
  nth_error ks i = Some k -> edits k rel -> nth_error l i = Some Accepted ->
  result (earlier c ae s0 sched (names w rel)) k (node_at (sy_disk s) (names w rel)) \/
  exists before after j k' rel', sched = before ++ after /\ nth_error ks j = Some k' /\ edits k' rel' /\ names w rel' = names w rel /\
    ~ waiting (runs c ae s0 before) i /\ waiting (runs c ae s0 before) j /\ nth_error l j = Some Accepted.
Proof.
  intros c ae d w st ks sched l i k rel O F s0 s An SM N E A. destruct (last_runs c ae w d st ks sched O F) as [(ph & I & B)|(_ & Z)].
  - fold s0 s in I. destruct (smooth_good s l An SM ph I). contradiction.
  - fold s0 s in Z. assert (Np : nth_error (sy_phases s) i = Some (Ended Accepted)) by (rewrite An, nth_error_map, A; reflexivity).
    destruct (Z i k rel _ N E Np) as (_ & [[]|[Y|[Y|(b & a & j & k' & rel' & ph' & E1 & Nj & Ej & EN & NW & Wj & Nj' & Y)]]]); [discriminate|left; exact Y|].
    right. exists b, a, j, k', rel'. do 6 (split; [assumption|]). rewrite An, nth_error_map in Nj'. destruct (nth_error l j) as [x|]; cbn in Nj'; [|discriminate].
    injection Nj' as <-. destruct Y as [[]|[= ->]]. reflexivity.
Qed.
Print Assumptions C41_last_edit_stands_if_no_build_fails.
(** Edits of different files do not disturb each other's files, whatever the
    order of the steps and whichever builds fail: each file ends as the edit's
    answer says, and no others change but for directories. *)
Theorem C41_different_files_are_not_disturbed : forall c ae d w st ks sched l, ordinary c w d -> Forall plain_edit ks -> different_files w ks ->
  let s := runs c ae (begin d st ks) sched in answered s l ->
  (forall i k rel a, nth_error ks i = Some k -> edits k rel -> nth_error l i = Some a -> made_of k a (node_at d (names w rel)) (node_at (sy_disk s) (names w rel))) /\
  (forall p, (forall k rel, In k ks -> edits k rel -> p <> names w rel) ->
     node_at (sy_disk s) p = node_at d p \/ (node_at d p = None /\ node_at (sy_disk s) p = Some Dir)).
Proof.
  intros c ae d w st ks sched l O F DF s An. destruct (runs_sees c ae w d st ks sched O F DF) as (_ & V & Z). fold s in V, Z. split; [|exact Z].
  intros i k rel a N E A. assert (Np : nth_error (sy_phases s) i = Some (Ended a)) by (rewrite An, nth_error_map, A; reflexivity). exact (V i k rel _ N E Np).
Qed.
Print Assumptions C41_different_files_are_not_disturbed.

(** Examples. *)
Definition parse3 (s : str) : option parsed :=
  if str_eqb s (L "robots") then Some {| ps_error := false; ps_entities := []; ps_schemas := [ {| sn_name := Some (L "robot"); sn_blocks := [] |} ] |} else parse0 s.
Definition c3 : ctx :=
  {| c_ws := path_of (L "/w"); c_links := 40; c_parse := parse3; c_env := env0; c_fields := fid; c_schemas := sid; c_files := fun l => l |}.
Definition robot_alone : list task := [Edit (Write (L "x.firm") (L "unknown type") false); Edit (Write (L "y.firm") (L "robots") false)].
Definition same_file : list task := [Edit (Write (L "x.firm") (L "unknown type") false); Edit (Write (L "x.firm") (L "jane") false)].
Definition edits_smooth : list task := [Edit (Write (L "x.firm") (L "jane") false); Edit (Replace (L "x.firm") (L "jane") (L "jim") false false); Edit (Delete (L "b.firm") false)].
Lemma d0_ordinary3 : ordinary c3 w0 d0.
Proof. exact d0_ordinary. Qed.
Lemma robot_different : different_files w0 robot_alone.
Proof.
  intros i j k k' rel rel' Ni Nj E E' NE (x & H). destruct i as [|[|[|i]]], j as [|[|[|j]]]; cbn in Ni, Nj; try congruence; injection Ni as <-; injection Nj as <-; cbn in E, E'; subst; vm_compute in H; discriminate.
Qed.
Example C41_case :
  answered (runs c0 ae0 (begin d0 st0 edits_smooth) [2; 0; 0; 1; 2; 1; 1]) [Accepted; Accepted; Accepted] /\ smooth [Accepted; Accepted; Accepted] /\
  Forall plain_edit edits_smooth /\ Forall plain_task (Edit Build :: AddTask add_jane :: edits_smooth) /\ rebuild c0 d0 = Ok st0 /\ ordinary c0 w0 d0 /\
  node_at (sy_disk (runs c0 ae0 (begin d0 st0 edits_smooth) [2; 0; 0; 1; 2; 1; 1])) (names w0 (L "./x.firm")) = Some (File (L "jim")) /\
  answered (runs c3 ae0 (begin d0 st0 robot_alone) [0; 1; 0; 1]) [Accepted; Accepted] /\
  in_turn c3 ae0 d0 st0 robot_alone <> in_turn c3 ae0 d0 st0 (rev robot_alone) /\
  (forall i, i < 2 -> 4 <= count_occ Nat.eq_dec (one_by_one 2) i).
Proof.
  split; [vm_compute; reflexivity|]. split; [intros a [<-|[<-|[<-|[]]]]; auto|]. split; [repeat constructor; reflexivity|]. split; [repeat constructor; reflexivity|].
  split; [vm_compute; reflexivity|]. split; [exact d0_ordinary|]. split; [vm_compute; reflexivity|]. split; [vm_compute; reflexivity|]. split; [vm_compute; discriminate|].
  intros i H. destruct i as [|[|i]]; cbn; lia.
Qed.
(** An acknowledged write is lost if the rollback of another write to the same
    file comes after it; and what was lost is still served. *)
Theorem C41_acknowledged_write_is_on_disk_refuted : exists c ae d w st ks sched rel content force, ordinary c w d /\ Forall plain_edit ks /\ rebuild c d = Ok st /\
  let s := runs c ae (begin d st ks) sched in answered s [Invalid true; Accepted] /\
  nth_error ks 1 = Some (Edit (Write rel content force)) /\ node_at (sy_disk s) (names w rel) = None /\
  rebuild c (sy_disk s) <> Ok (sy_state s) /\ exists st', rebuild c (sy_disk s) = Ok st' /\ get_entity (st_graph st') (L "person.jane") = None /\
  get_entity (st_graph (sy_state s)) (L "person.jane") <> None.
Proof.
  exists c0, ae0, d0, w0, st0, same_file, [0; 0; 1; 1; 0], (L "x.firm"), (L "jane"), false. split; [exact d0_ordinary|]. split; [repeat constructor; reflexivity|].
  split; [vm_compute; reflexivity|]. cbn zeta. split; [vm_compute; reflexivity|]. split; [reflexivity|]. split; [vm_compute; reflexivity|]. split; [vm_compute; discriminate|].
  eexists. split; [vm_compute; reflexivity|]. split; [vm_compute; reflexivity|vm_compute; discriminate].
Qed.
Print Assumptions C41_acknowledged_write_is_on_disk_refuted.
(** Even if the files are different, what is served need not be the disk's: a
    write may be accepted because of a file that is then rolled back. *)
Theorem C41_served_is_the_disk_refuted : exists c ae d w st ks sched, ordinary c w d /\ Forall plain_edit ks /\ different_files w ks /\ rebuild c d = Ok st /\
  let s := runs c ae (begin d st ks) sched in answered s [Invalid true; Accepted] /\
  exists st', rebuild c (sy_disk s) = Ok st' /\ get_entity (st_graph st') (L "robot.r_2") = None /\ get_entity (st_graph (sy_state s)) (L "robot.r_2") <> None.
Proof.
  exists c3, ae0, d0, w0, st0, robot_alone, [0; 0; 1; 1; 0]. split; [exact d0_ordinary3|]. split; [repeat constructor; reflexivity|]. split; [exact robot_different|].
  split; [vm_compute; reflexivity|]. cbn zeta. split; [vm_compute; reflexivity|]. eexists. split; [vm_compute; reflexivity|]. split; [vm_compute; reflexivity|vm_compute; discriminate].
Qed.
Print Assumptions C41_served_is_the_disk_refuted.
(** Of two replacements in a file, both acknowledged, one may be undone by the
    other, although in either order both would stand. *)
Definition c4 : ctx :=
  {| c_ws := path_of (L "/w"); c_links := 40; c_parse := fun _ => Some {| ps_error := false; ps_schemas := []; ps_entities := [] |};
     c_env := env0; c_fields := fid; c_schemas := sid; c_files := fun l => l |}.
Definition d4 : fs := [([L "w"], Dir); ([L "w"; L "a.firm"], File (L "ab"))].
Definition two_replaces : list task := [Edit (Replace (L "a.firm") (L "a") (L "x") false false); Edit (Replace (L "a.firm") (L "b") (L "y") false false)].
Theorem C41_both_replacements_stand_refuted : exists c ae d w st ks sched rel, Forall plain_edit ks /\ Forall (fun k => edits k rel) ks /\ rebuild c d = Ok st /\
  let s := runs c ae (begin d st ks) sched in answered s [Accepted; Accepted] /\ node_at (sy_disk s) (names w rel) = Some (File (L "ay")) /\
  (exists d' st', in_turn c ae d st ks = (d', st', [Accepted; Accepted]) /\ node_at d' (names w rel) = Some (File (L "xy"))) /\
  (exists d' st', in_turn c ae d st (rev ks) = (d', st', [Accepted; Accepted]) /\ node_at d' (names w rel) = Some (File (L "xy"))).
Proof.
  exists c4, ae0, d4, w0, (match rebuild c4 d4 with Ok st => st | _ => none0 end), two_replaces, [0; 1; 0; 0; 1; 1], (L "a.firm").
  split; [repeat constructor; reflexivity|]. split; [repeat constructor; reflexivity|]. split; [vm_compute; reflexivity|]. cbn zeta. split; [vm_compute; reflexivity|]. split; [vm_compute; reflexivity|].
  split; eexists; eexists; (split; [vm_compute; reflexivity|vm_compute; reflexivity]).
Qed.
Print Assumptions C41_both_replacements_stand_refuted.
(** Two requests to add an entity under the same id may both be carried out, and
    leave a workspace that does not build; in either order the second is refused. *)
Definition add_at (f : str) : add_params :=
  {| a_type := L "person"; a_id := L "Jane"; a_fields := [(L "Full Name", JStr (L "Jane")); (L "cv", JStr (L "docs/jane.md"))]; a_file := Some f; a_items := [] |}.
Definition two_adds : list task := [AddTask (add_at (L "p/x.firm")); AddTask (add_at (L "p/y.firm"))].
Theorem C41_same_id_is_added_once_refuted : exists c ae d w st ks sched, ordinary c w d /\ Forall plain_task ks /\ rebuild c d = Ok st /\
  let s := runs c ae (begin d st ks) sched in answered s [Forced; Forced] /\ (exists e, rebuild c (sy_disk s) = Err e) /\
  (exists d' st', in_turn c ae d st ks = (d', st', [Accepted; Refused]) /\ rebuild c d' = Ok st') /\
  (exists d' st', in_turn c ae d st (rev ks) = (d', st', [Accepted; Refused]) /\ rebuild c d' = Ok st').
Proof.
  exists c1, ae0, d2, w0, st2, two_adds, [0; 1; 0; 1]. split; [exact d2_ordinary|]. split; [repeat constructor|]. split; [vm_compute; reflexivity|]. cbn zeta. split; [vm_compute; reflexivity|].
  split; [eexists; vm_compute; reflexivity|]. split; eexists; eexists; (split; [vm_compute; reflexivity|vm_compute; reflexivity]).
Qed.
Print Assumptions C41_same_id_is_added_once_refuted.
