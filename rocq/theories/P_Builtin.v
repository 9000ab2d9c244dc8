(** C60: what the built-in types of entities ask for. *)
From Verif Require Import S_Graph L_Graph.
From Verif Require Import S_Builtin S_Init L_Str L_Schema P_Schema.
From Verif Require Import M_Init.
Close Scope Z_scope.

Definition row_of (p : field_id * fschema) : row :=
  let w := match fs_allowed (snd p) with Some ws => OneOf ws | None => Plain (fs_type (snd p)) end in
  if fs_required (snd p) then Must (fst p) w else May (fst p) w.
(** The types of [built_in] and those of the program are the same, in order. *)
Lemma same_rows : Forall2 (fun tr s => s_type s = fst tr /\ map row_of (s_fields s) = on_every ++ snd tr) built_in all_default_schemas.
Proof. unfold built_in, all_default_schemas. repeat (constructor; [split; vm_compute; reflexivity|]). constructor. Qed.
Lemma same_kinds : Forall (fun s => Forall (fun p => match fs_allowed (snd p) with Some _ => fs_type (snd p) = TEnum | None => fs_type (snd p) <> TEnum end) (s_fields s)) all_default_schemas.
Proof.
  assert (F : forallb (fun s => forallb (fun p => match fs_allowed (snd p), fs_type (snd p) with Some _, TEnum => true | Some _, _ => false | None, TEnum => false | None, _ => true end) (s_fields s)) all_default_schemas = true)
    by (vm_compute; reflexivity).
  rewrite forallb_forall in F. apply Forall_forall. intros s I. apply F in I. rewrite forallb_forall in I. apply Forall_forall. intros p Ip. apply I in Ip.
  destruct (fs_allowed (snd p)), (fs_type (snd p)); congruence.
Qed.
Lemma first_of e id v : In (id, v) (e_fields e) -> exists v', first_value e id v'.
Proof.
  unfold first_value. induction (e_fields e) as [|[k u] l IH]; [intros []|]. intros I. destruct (str_eqb k id) eqn:K.
  - apply str_eqb_eq in K as ->. exists u, [], l. split; [reflexivity|intros []].
  - destruct I as [I|I]; [injection I as -> _; rewrite str_eqb_refl in K; discriminate|]. destruct (IH I) as (v' & a & b & -> & N). exists v', ((k, u) :: a), b. split; [reflexivity|].
    intros [X|X]; [cbn in X; subst; rewrite str_eqb_refl in K; discriminate|exact (N X)].
Qed.
Lemma row_follows e p : match fs_allowed (snd p) with Some _ => fs_type (snd p) = TEnum | None => fs_type (snd p) <> TEnum end ->
  (follows_row e (row_of p) <->
    (fs_required (snd p) = true -> exists v, In (fst p, v) (e_fields e)) /\
    (forall v, first_value e (fst p) v -> has_type v (fs_type (snd p))) /\
    (forall x, first_value e (fst p) (VEnum x) -> exists allowed w, fs_allowed (snd p) = Some allowed /\ In w allowed /\ normal_of x w)).
Proof.
  intros K. set (w := match fs_allowed (snd p) with Some ws => OneOf ws | None => Plain (fs_type (snd p)) end).
  assert (A : (forall v, first_value e (fst p) v -> fits v w) <->
    (forall v, first_value e (fst p) v -> has_type v (fs_type (snd p))) /\
    (forall x, first_value e (fst p) (VEnum x) -> exists allowed u, fs_allowed (snd p) = Some allowed /\ In u allowed /\ normal_of x u)).
  { unfold w. destruct (fs_allowed (snd p)) as [ws|]; cbn [fits].
    - rewrite K. split.
      + intros H. split; [intros v F; destruct (H v F) as (x & u & -> & _); constructor|]. intros x F. destruct (H _ F) as (x' & u & E & I & N). injection E as <-. eauto.
      + intros [H1 H2] v F. pose proof (H1 v F) as T. destruct v; try now inversion T. destruct (H2 _ F) as (al & u & E & I & N). injection E as <-. eauto.
    - split; [intros H; split; [exact H|]|intros [H _]; exact H]. intros x F. exfalso. apply K. apply H in F. now inversion F. }
  unfold row_of. fold w. destruct (fs_required (snd p)); cbn [follows_row].
  - rewrite A. split.
    + intros [(v & a & b & E & _) R]. split; [|exact R]. intros _. exists v. rewrite E. apply in_or_app. right. now left.
    + intros [H R]. split; [|exact R]. destruct (H eq_refl) as (v & I). exact (first_of _ _ _ I).
  - rewrite A. split; [intros R; split; [discriminate|exact R]|intros [_ R]; exact R].
Qed.

(** The schema that comes with firm for a type accepts an entity of the type if
    and only if its fields are as in the table. *)
Theorem C60_what_the_types_ask_for : forall t rows, In (t, rows) built_in ->
  exists s, In s all_default_schemas /\ s_type s = t /\
    forall ho e, shuffles ho -> e_type e = t -> (validate ho s e = [] <-> Forall (follows_row e) (on_every ++ rows)).
Proof.
  intros t rows I.
  assert (X : exists s, In s all_default_schemas /\ s_type s = t /\ map row_of (s_fields s) = on_every ++ rows).
  { revert I. generalize same_rows. generalize built_in, all_default_schemas. intros bs ss F. induction F as [|[t' r'] s bs ss [E M] F IH]; [intros []|].
    intros [J|J]; [injection J as -> ->; exists s; split; [now left|auto]|]. destruct (IH J) as (s' & Is & R). exists s'. split; [now right|exact R]. }
  destruct X as (s & Is & E & M). exists s. split; [exact Is|]. split; [exact E|]. intros ho e O T. rewrite (C31_accepts_exactly_the_conforming ho s e O), <- M.
  pose proof same_kinds as K. rewrite Forall_forall in K. specialize (K s Is). rewrite Forall_forall in K. rewrite Forall_forall. unfold conforms. split.
  - intros [_ C] r Ir. apply in_map_iff in Ir as ([id f] & <- & Ip). apply row_follows; [exact (K _ Ip)|]. exact (C id f Ip).
  - intros H. split; [now rewrite T|]. intros id f Ip. apply (row_follows e (id, f)); [exact (K _ Ip)|]. apply H. now apply in_map.
Qed.
Print Assumptions C60_what_the_types_ask_for.

(** There are no others. *)
Theorem C60_types_in_the_table : map fst built_in = default_types /\ map s_type all_default_schemas = default_types.
Proof. split; reflexivity. Qed.
Print Assumptions C60_types_in_the_table.

(** A lead needs its source and nothing else; a status has to be one of four
    words, in any case; fields the table does not have are accepted. *)
Definition lead94 (fs : list (field_id * value)) : entity := {| e_id := L "lead.a"; e_type := L "lead"; e_fields := fs |}.
Definition by_web : field_id * value := (L "source_ref", VRef (REntity (L "channel.web"))).
Example C60_table_case : validate fid lead (lead94 [by_web]) = [] /\ validate fid lead (lead94 []) <> [] /\
  validate fid lead (lead94 [by_web; (L "status", VEnum (L " Qualified"))]) = [] /\ validate fid lead (lead94 [by_web; (L "status", VEnum (L "lost"))]) <> [] /\
  validate fid lead (lead94 [by_web; (L "score", VStr (L "high"))]) <> [] /\ validate fid lead (lead94 [by_web; (L "mood", VStr (L "high"))]) = [] /\
  exists rows, In (L "lead", rows) built_in.
Proof. repeat (split; [first [vm_compute; reflexivity | vm_compute; discriminate]|]). eexists. unfold built_in. do 5 right. left. reflexivity. Qed.
