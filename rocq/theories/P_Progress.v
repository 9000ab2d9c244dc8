(** C92: the progress reported counts the files, and shows where a build
    stopped. *)
From Coq Require Import Lia Permutation.
From Verif Require Import S_Graph L_Graph.
From Verif Require Import S_Progress L_Str L_Text L_Schema L_Schema2 L_Workspace L_Blame L_Progress.
From Verif Require Import P_Dsl P_Schema P_Workspace P_Server P_Blame.
From Verif Require Import M_Text.
Close Scope Z_scope.

(** Watching makes no difference. *)
Theorem C92_watching_changes_nothing : forall be env ho so fs, snd (watch_build be env ho so fs) = fault_build be env ho so fs.
Proof.
  intros be env ho so fs. unfold watch_build, fault_build. destruct (fault_collect env fs []) as [m|x|]; cbn [obind]; try reflexivity.
  rewrite <- (watch_files_same be env ho m (length fs) fs 0). destruct (watch_files be env ho m (length fs) 0 fs). reflexivity.
Qed.
Print Assumptions C92_watching_changes_nothing.
(** A build that succeeds has begun every file; one that fails has begun those
    up to the one that is not sound, and none if the schemas are not. *)
Theorem C92_reports_count_files : forall be env ho so fs rs o, shuffles ho -> watch_build be env ho so fs = (rs, o) ->
  match o with
  | Ok _ => reports_begun (length fs) (length fs) rs /\ schemas_sound env fs /\ Forall (fun pf => file_sound env fs (snd pf)) fs
  | Err x =>
      (reports_begun (length fs) 0 rs /\ ~ schemas_sound env fs /\ exists p f, In (p, f) fs /\ names_file x p) \/
      exists a p f b, fs = a ++ (p, f) :: b /\ reports_begun (length fs) (S (length a)) rs /\ names_file x p /\
        schemas_sound env fs /\ Forall (fun pf => file_sound env fs (snd pf)) a /\ ~ file_sound env fs f
  | Panic =>
      (reports_begun (length fs) 0 rs /\ ~ schemas_sound env fs) \/
      exists a p f b, fs = a ++ (p, f) :: b /\ reports_begun (length fs) (S (length a)) rs /\
        schemas_sound env fs /\ Forall (fun pf => file_sound env fs (snd pf)) a /\ ~ file_sound env fs f
  end.
Proof.
  intros be env ho so fs rs o O H. unfold watch_build in H. pose proof (fault_collect_sound env fs) as CS. pose proof (fault_collect_names env fs []) as CN.
  assert (Z : reports_begun (length fs) 0 [{| rp_first := length fs; rp_second := 0; rp_phase := L "Building schemas" |}]).
  { exists {| rp_first := length fs; rp_second := 0; rp_phase := L "Building schemas" |}, []. split; [reflexivity|]. split; [repeat split|]. split; [reflexivity|]. intros []; discriminate. }
  destruct (fault_collect env fs []) as [m|x|]; [|injection H as <- <-; left; repeat split; auto|injection H as <- <-; left; auto].
  destruct CS as (ss & F & N & ->). assert (SS : schemas_sound env fs) by (exists ss; auto).
  pose proof (watch_files_length be env ho (map (fun s => (s_type s, s)) ss) (length fs) fs 0) as W.
  pose proof (watch_files_shape be env ho (map (fun s => (s_type s, s)) ss) (length fs) fs 0) as Sh.
  destruct (watch_files be env ho (map (fun s => (s_type s, s)) ss) (length fs) 0 fs) as [rs' o']. cbn [fst Nat.add] in Sh.
  injection H as <- <-.
  assert (B : forall k, length rs' = k -> reports_begun (length fs) k ({| rp_first := length fs; rp_second := 0; rp_phase := L "Building schemas" |} :: rs')).
  { intros k E. exists {| rp_first := length fs; rp_second := 0; rp_phase := L "Building schemas" |}, rs'. split; [reflexivity|]. split; [repeat split|]. split; [exact E|exact Sh]. }
  assert (G : forall l, Forall (fun pf => exists es, fault_file be env ho (map (fun s => (s_type s, s)) ss) pf = Ok es) l -> Forall (fun pf => file_sound env fs (snd pf)) l).
  { intros l. apply Forall_impl. intros [p f] E. exact (proj1 (fault_file_sound be env ho fs ss p f O F N) E). }
  destruct o' as [ess|x|]; cbn [obind].
  - destruct W as [W A]. auto.
  - destruct W as (a & [p f] & b & -> & W & Q & A). right. exists a, p, f, b. split; [reflexivity|]. split; [auto|].
    split; [exact (fault_file_names be env ho _ p f x Q)|]. split; [exact SS|]. split; [auto|].
    intros X. apply (fault_file_sound be env ho _ ss p f O F N) in X as (es & X). congruence.
  - destruct W as (a & [p f] & b & -> & W & Q & A). right. exists a, p, f, b. split; [reflexivity|]. split; [auto|]. split; [exact SS|]. split; [auto|].
    intros X. apply (fault_file_sound be env ho _ ss p f O F N) in X as (es & X). congruence.
Qed.
Print Assumptions C92_reports_count_files.
(** The bar of the command line never shows more than there is, never goes back,
    and is full exactly at the end of a build that succeeds or of an empty one. *)
Theorem C92_bar : forall be env ho so fs, let '(shown, final) := cli_bar be env ho so fs in
  (forall i b, nth_error shown i = Some b -> bar_length b = length fs /\ bar_position b <= length fs /\ (fs <> [] -> bar_position b < length fs)) /\
  (forall i b b', nth_error shown i = Some b -> nth_error shown (S i) = Some b' -> bar_position b <= bar_position b' <= S (bar_position b)) /\
  (forall r, snd (watch_build be env ho so fs) = Ok r -> exists b, final = Some b /\ bar_length b = length fs /\ bar_position b = length fs).
Proof.
  intros be env ho so fs. unfold cli_bar. set (z := {| bar_length := length fs; bar_position := 0; bar_message := [] |}).
  assert (K : exists rs o, watch_build be env ho so fs = ({| rp_first := length fs; rp_second := 0; rp_phase := L "Building schemas" |} :: rs, o) /\
    length rs <= length fs /\ forall i r, nth_error rs i = Some r -> reports (length fs) i (L "Building entities") r).
  { unfold watch_build. destruct (fault_collect env fs []) as [m|x|].
    - pose proof (watch_files_length be env ho m (length fs) fs 0) as W. pose proof (watch_files_shape be env ho m (length fs) fs 0) as Sh.
      destruct (watch_files be env ho m (length fs) 0 fs) as [rs o]. cbn [fst Nat.add] in Sh. eexists rs, _. split; [reflexivity|]. split; [|exact Sh].
      destruct o; [lia| |]; destruct W as (a & pf & b & -> & W & _); rewrite W, app_length; cbn [length]; lia.
    - eexists [], _. split; [reflexivity|]. split; [cbn; lia|]. intros []; discriminate.
    - eexists [], _. split; [reflexivity|]. split; [cbn; lia|]. intros []; discriminate. }
  destruct K as (rs & o & E & LE & Sh). rewrite E. cbn [snd map].
  assert (SB : forall i b, nth_error (map bar_at rs) i = Some b -> bar_length b = length fs /\ bar_position b = i /\ i < length fs).
  { intros i b H. rewrite nth_error_map in H. destruct (nth_error rs i) as [r|] eqn:Er; [|discriminate]. injection H as <-. destruct (Sh i r Er) as (A & B & _).
    cbn [bar_at bar_length bar_position]. repeat split; auto. apply Nat.lt_le_trans with (length rs); [|exact LE]. apply nth_error_Some. congruence. }
  split; [|split].
  - intros [|[|i]] b H; cbn [nth_error] in H.
    + injection H as <-. cbn. repeat split; [lia|]. intros X. destruct fs; [congruence|cbn; lia].
    + injection H as <-. cbn. repeat split; [lia|]. intros X. destruct fs; [congruence|cbn; lia].
    + destruct (SB i b H) as (A & -> & C). repeat split; auto; lia.
  - intros [|[|i]] b b' H H'; cbn [nth_error] in H, H'.
    + injection H as <-. injection H' as <-. cbn. lia.
    + injection H as <-. destruct (SB 0 b' H') as (_ & -> & _). cbn. lia.
    + destruct (SB i b H) as (_ & -> & _). destruct (SB (S i) b' H') as (_ & -> & _). lia.
  - intros r ->. eexists. split; [reflexivity|]. cbn [bar_length bar_position].
    assert (X : bar_length (last (bar_at {| rp_first := length fs; rp_second := 0; rp_phase := L "Building schemas" |} :: map bar_at rs) z) = length fs).
    { assert (Y : forall l, (forall b, In b l -> bar_length b = length fs) -> bar_length (last l z) = length fs).
      { induction l as [|b l IH]; intros HH; [reflexivity|]. destruct l; [apply HH; left; reflexivity|]. apply IH. intros c I. apply HH. right. exact I. }
      apply Y. intros b [<-|I]; [reflexivity|]. apply In_nth_error in I as (i & I). apply (SB i b I). }
    auto.
Qed.
Print Assumptions C92_bar.
(** No report says that all files are done, unless there are none. *)
Theorem C92_last_report_is_full_refuted : forall be env ho so fs rs o r, fs <> [] ->
  watch_build be env ho so fs = (rs, o) -> In r rs -> rp_second r < length fs.
Proof.
  intros be env ho so fs rs o r NE H I. pose proof (C92_bar be env ho so fs) as B. unfold cli_bar in B. rewrite H in B. destruct B as (B & _).
  apply In_nth_error in I as (i & I). destruct (B (S i) (bar_at r)) as (_ & _ & C); [|exact (C NE)].
  cbn [nth_error]. rewrite nth_error_map, I. reflexivity.
Qed.
Print Assumptions C92_last_report_is_full_refuted.
(** The debug log of [build] is to say how many files are done, out of how many;
    it says it the other way round. *)
Theorem C92_log_refuted : exists be env ho so fs, length fs = 2 /\
  build_log be env ho so fs = [L "Building schemas: 2/0"; L "Building entities: 2/0"; L "Building entities: 2/1"] /\
  exists b, snd (watch_build be env ho so fs) = Ok b.
Proof.
  exists be0, env0, fid, sid, (one_file [named_schema] [] ++ one_file [] []). split; [reflexivity|]. split; [vm_compute; reflexivity|].
  eexists. vm_compute. reflexivity.
Qed.
Print Assumptions C92_log_refuted.
(** Two files are begun if the second of three is not sound. *)
Example C92_case : exists x, watch_build be0 env0 fid sid (one_file [named_schema] [] ++ one_file [] [nameless (L "ann")] ++ one_file [] []) =
  ([{| rp_first := 3; rp_second := 0; rp_phase := L "Building schemas" |}; {| rp_first := 3; rp_second := 0; rp_phase := L "Building entities" |};
    {| rp_first := 3; rp_second := 1; rp_phase := L "Building entities" |}], Err x) /\ names_file x (L "/w/a.firm").
Proof. eexists. split; vm_compute; reflexivity. Qed.
