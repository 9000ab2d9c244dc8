(** Lemmas: JSON values are read as they were written, and no part of the text
    of a container can be read. *)
From Coq Require Import Lia.
From Verif Require Import M_Json S_Json L_Str L_Num L_Json.
Close Scope Z_scope.

Fixpoint depth (v : jv) : nat :=
  match v with
  | JvArr l => S (fold_right Nat.max 0 (map depth l))
  | JvObj l => S (fold_right Nat.max 0 (map (fun kv => depth (snd kv)) l))
  | _ => 0
  end.
Lemma max_in n l : In n l -> n <= fold_right Nat.max 0 l.
Proof. induction l as [|m l IH]; cbn; intros H; [destruct H|]. destruct H as [->|H]; [lia|]. apply IH in H. lia. Qed.
Lemma max_le n l : (forall m, In m l -> m <= n) -> fold_right Nat.max 0 l <= n.
Proof. induction l as [|m l IH]; cbn; intros H; [lia|]. pose proof (H m (or_introl eq_refl)). specialize (IH (fun x i => H x (or_intror i))). lia. Qed.

(** What is read instead of a value. *)
Inductive back (wf : f64 -> str) (nv : number_reader) : jv -> jv -> Prop :=
| back_null : back wf nv JvNull JvNull
| back_bool b : back wf nv (JvBool b) (JvBool b)
| back_int z v : (forall r, stops r -> read_number nv (show_Z z ++ r) = Some (v, r)) -> back wf nv (JvInt z) v
| back_float f v : f_is_finite f = true -> number_text (wf f) -> (forall r, stops r -> read_number nv (wf f ++ r) = Some (v, r)) -> back wf nv (JvFloat f) v
| back_no_number f : f_is_finite f = false -> back wf nv (JvFloat f) JvNull
| back_str s : back wf nv (JvStr s) (JvStr s)
| back_arr l l' : Forall2 (back wf nv) l l' -> back wf nv (JvArr l) (JvArr l')
| back_obj l l' : Forall2 (fun kv kv' => fst kv = fst kv' /\ back wf nv (snd kv) (snd kv')) l l' -> back wf nv (JvObj l) (JvObj l').

(** ** First characters *)
Definition opens (c : ascii) : Prop := is_ws c = false /\ Ascii.eqb c "]" = false /\ Ascii.eqb c "}" = false.
Definition numeric (c : ascii) : Prop := opens c /\ Ascii.eqb c "n" = false /\ Ascii.eqb c "t" = false /\ Ascii.eqb c "f" = false /\
  Ascii.eqb c QT = false /\ Ascii.eqb c "[" = false /\ Ascii.eqb c "{" = false.
Lemma digit_numeric c : is_digit c = true -> numeric c.
Proof. destruct c as [[] [] [] [] [] [] [] []]; intros H; try discriminate H; repeat split. Qed.
Lemma number_head t : number_text t -> exists c r, t = c :: r /\ numeric c.
Proof.
  intros N. apply number_text_parts in N as (neg & ints & frac & ex & e & -> & P & _). destruct neg; cbn [list_ascii_of_string app].
  - exists "-"%char. eexists. split; [reflexivity|]. repeat split.
  - pose proof (digits_head ints (frac_text frac ++ e) (proj1 (proj1 P))) as H. destruct (ints ++ frac_text frac ++ e) as [|c q]; [destruct H|].
    exists c, q. split; [reflexivity|]. apply digit_numeric, H.
Qed.
Lemma skip_here c s : is_ws c = false -> skip_ws (c :: s) = c :: s.
Proof. intros H. cbn [skip_ws]. rewrite H. reflexivity. Qed.
Lemma read_value_number nv d t r v : number_text t -> read_number nv (t ++ r) = Some (v, r) -> read_value nv d (t ++ r) = Some (v, r).
Proof.
  intros N H. apply number_head in N as (c & q & -> & (W & _) & B1 & B2 & B3 & B4 & B5 & B6). destruct d; cbn [app read_value] in *; rewrite skip_here by exact W; rewrite B1, B2, B3, B4, B5, B6; exact H.
Qed.
Lemma show_head wf nv v v' : back wf nv v v' -> exists c r, show_jv wf v = c :: r /\ opens c.
Proof.
  intros B. inversion B; subst; cbn [show_jv].
  - eexists _, _. split; [reflexivity|repeat split].
  - destruct b; (eexists _, _; split; [reflexivity|repeat split]).
  - destruct (number_head _ (show_Z_number z)) as (c & r & E & N & _). eauto.
  - rewrite H. destruct (number_head _ H0) as (c & r & E & N & _). eauto.
  - rewrite H. eexists _, _. split; [reflexivity|repeat split].
  - eexists _, _. split; [reflexivity|repeat split].
  - eexists _, _. split; [reflexivity|repeat split].
  - eexists _, _. split; [reflexivity|repeat split].
Qed.

(** ** Reading what was written *)
Lemma word_here w r : word w (w ++ r) = Some r.
Proof. induction w as [|c w IH]; [reflexivity|]. cbn [app word]. rewrite Ascii.eqb_refl. exact IH. Qed.
Lemma join_cons sep x l : l <> [] -> join sep (x :: l) = x ++ sep ++ join sep l.
Proof. destruct l; [congruence|reflexivity]. Qed.
Lemma join_long (l : list str) : l <> [] -> length l <= S (length (join (L ",") l)).
Proof.
  induction l as [|x l IH]; [congruence|]. intros _. destruct l as [|y l]; [cbn; lia|]. rewrite join_cons by discriminate. rewrite !app_length. specialize (IH ltac:(discriminate)). cbn [length list_ascii_of_string] in *. lia.
Qed.
Lemma items_back (rv : str -> option (jv * str)) (sh : jv -> str) l l' : l <> [] ->
  Forall2 (fun x x' => forall r, stops r -> rv (sh x ++ r) = Some (x', r)) l l' ->
  forall k r, length l <= k -> read_items rv k (join (L ",") (map sh l) ++ L "]" ++ r) = Some (l', r).
Proof.
  intros N F. induction F as [|x x' l l' H F IH]; [congruence|]. intros k r K. destruct k as [|k]; [cbn in K; lia|]. cbn [read_items].
  destruct l as [|y l].
  - inversion F; subst. cbn [map join]. rewrite H by (cbn; repeat split; discriminate). reflexivity.
  - cbn [map] in *. rewrite join_cons by discriminate. rewrite <- app_assoc. rewrite H by (cbn; repeat split; discriminate).
    cbn [list_ascii_of_string app]. rewrite skip_here by reflexivity. change (Ascii.eqb "," ",") with true. cbn iota.
    change ("]"%char :: r) with (L "]" ++ r). rewrite (IH ltac:(discriminate)) by (cbn [length] in *; lia). reflexivity.
Qed.
Lemma members_back (rv : str -> option (jv * str)) (sh : jv -> str) l l' : l <> [] ->
  Forall2 (fun (x x' : str * jv) => fst x = fst x' /\ forall r, stops r -> rv (sh (snd x) ++ r) = Some (snd x', r)) l l' ->
  forall k r, length l <= k -> read_members rv k (join (L ",") (map (fun kv => quote (fst kv) ++ L ":" ++ sh (snd kv)) l) ++ L "}" ++ r) = Some (l', r).
Proof.
  intros N F. induction F as [|[x v] [x' v'] l l' [E H] F IH]; [congruence|]. cbn [fst snd] in E, H. subst x'. intros k r K. destruct k as [|k]; [cbn in K; lia|]. cbn [read_members].
  assert (Q : forall t, quote x ++ t = QT :: concat (map escape x) ++ QT :: t) by (intros t; unfold quote; cbn [app]; rewrite <- app_assoc; reflexivity).
  destruct l as [|y l].
  - inversion F; subst. cbn [map join fst snd]. rewrite <- !app_assoc, Q. rewrite skip_here by reflexivity. change (Ascii.eqb QT QT) with true. cbn iota. rewrite read_quoted.
    cbn [list_ascii_of_string app]. rewrite skip_here by reflexivity. change (Ascii.eqb ":" ":") with true. cbn iota. rewrite (H ("}"%char :: r)) by (cbn; repeat split; discriminate). reflexivity.
  - cbn [map fst snd] in *. rewrite join_cons by discriminate. rewrite <- !app_assoc, Q. rewrite skip_here by reflexivity. change (Ascii.eqb QT QT) with true. cbn iota. rewrite read_quoted.
    cbn [list_ascii_of_string app]. rewrite skip_here by reflexivity. change (Ascii.eqb ":" ":") with true. cbn iota. rewrite H by (cbn; repeat split; discriminate).
    rewrite skip_here by reflexivity. change (Ascii.eqb "," ",") with true. cbn iota. change ("}"%char :: r) with (L "}" ++ r). rewrite (IH ltac:(discriminate)) by (cbn [length] in *; lia). reflexivity.
Qed.
Lemma read_back wf nv v : forall v' d r, back wf nv v v' -> depth v <= d -> stops r -> read_value nv d (show_jv wf v ++ r) = Some (v', r).
Proof.
  apply (jv_ind' (fun v => forall v' d r, back wf nv v v' -> depth v <= d -> stops r -> read_value nv d (show_jv wf v ++ r) = Some (v', r))); clear v.
  - intros v' d r B _ _. inversion B; subst. destruct d; reflexivity.
  - intros b v' d r B _ _. inversion B; subst. destruct d, b; reflexivity.
  - intros z v' d r B _ S. inversion B; subst. cbn [show_jv]. apply read_value_number; [apply show_Z_number|auto].
  - intros f v' d r B _ S. inversion B as [| | |? ? F N R|? F| | |]; subst; cbn [show_jv]; rewrite F; [apply read_value_number; auto|]. destruct d; reflexivity.
  - intros s v' d r B _ _. inversion B; subst. cbn [show_jv]. unfold quote. rewrite <- !app_assoc. cbn [app]. destruct d; cbn [read_value]; rewrite skip_here by reflexivity;
      (change (Ascii.eqb QT "n") with false; change (Ascii.eqb QT "t") with false; change (Ascii.eqb QT "f") with false; change (Ascii.eqb QT QT) with true; cbn iota; rewrite read_quoted; reflexivity).
  - intros l IH v' d r B D S. inversion B as [| | | | | |? l' F|]; subst. cbn [show_jv depth] in *. rewrite <- !app_assoc. match goal with |- read_value nv d (L "[" ++ ?x) = _ => change (L "[" ++ x) with ("["%char :: x) end. destruct d as [|d]; [lia|].
    cbn [read_value]. rewrite skip_here by reflexivity. change (Ascii.eqb "[" "n") with false. change (Ascii.eqb "[" "t") with false. change (Ascii.eqb "[" "f") with false. change (Ascii.eqb "[" QT) with false. change (Ascii.eqb "[" "[") with true. cbn iota.
    destruct l as [|x l]; [inversion F; subst; reflexivity|]. inversion F as [|? x' ? ? Bx Fl]; subst.
    destruct (show_head wf nv x x' Bx) as (c & q & E & W & C & _).
    assert (H : exists q', join (L ",") (map (show_jv wf) (x :: l)) = c :: q').
    { cbn [map]. destruct l; [cbn [map join]; rewrite E; eauto|]. cbn [map]. rewrite join_cons by discriminate. rewrite E. cbn [app]. eauto. }
    pose proof (join_long (map (show_jv wf) (x :: l)) ltac:(discriminate)) as LL. rewrite map_length in LL.
    destruct H as (q' & H). remember (join (L ",") (map (show_jv wf) (x :: l))) as J eqn:HJ. rewrite H at 1. cbn [app]. rewrite skip_here by exact W. rewrite C.
    rewrite HJ.
    rewrite (items_back (read_value nv d) (show_jv wf) (x :: l) (x' :: l'0) ltac:(discriminate)); [reflexivity| |].
    + assert (G : forall a b, Forall2 (back wf nv) a b -> (forall y, In y a -> In y (x :: l)) -> Forall2 (fun y y' => forall r0, stops r0 -> read_value nv d (show_jv wf y ++ r0) = Some (y', r0)) a b).
      { induction 1 as [|y y' a b By Fy IHf]; intros I; constructor.
        - intros r0 S0. rewrite Forall_forall in IH. apply IH; auto; [apply I; left; reflexivity|].
          pose proof (max_in (depth y) (map depth (x :: l)) (in_map depth _ _ (I y (or_introl eq_refl)))). lia.
        - apply IHf. intros z Iz. apply I. right. exact Iz. }
      apply G; [exact F|auto].
    + rewrite app_length. rewrite <- HJ. cbn [length list_ascii_of_string] in LL |- *. rewrite app_length. cbn [length]. lia.
  - intros l IH v' d r B D S. inversion B as [| | | | | | |? l' F]; subst. cbn [show_jv depth] in *. rewrite <- !app_assoc. match goal with |- read_value nv d (L "{" ++ ?x) = _ => change (L "{" ++ x) with ("{"%char :: x) end. destruct d as [|d]; [lia|].
    cbn [read_value]. rewrite skip_here by reflexivity. change (Ascii.eqb "{" "n") with false. change (Ascii.eqb "{" "t") with false. change (Ascii.eqb "{" "f") with false. change (Ascii.eqb "{" QT) with false. change (Ascii.eqb "{" "[") with false. change (Ascii.eqb "{" "{") with true. cbn iota.
    destruct l as [|x l]; [inversion F; subst; reflexivity|]. inversion F as [|? x' ? ? Bx Fl]; subst.
    set (sh := fun kv : str * jv => quote (fst kv) ++ L ":" ++ show_jv wf (snd kv)).
    assert (H : exists q', join (L ",") (map sh (x :: l)) = QT :: q').
    { cbn [map]. destruct l; [cbn [map join]; unfold sh, quote; cbn [app]; eauto|]. cbn [map]. rewrite join_cons by discriminate. unfold sh at 1, quote. cbn [app]. eauto. }
    pose proof (join_long (map sh (x :: l)) ltac:(discriminate)) as LL. rewrite map_length in LL.
    change (map _ (x :: l)) with (map sh (x :: l)). destruct H as (q' & H). remember (join (L ",") (map sh (x :: l))) as J eqn:HJ. rewrite H at 1. cbn [app]. rewrite skip_here by reflexivity. change (Ascii.eqb QT "}") with false. cbn iota.
    rewrite HJ.
    rewrite (members_back (read_value nv d) (show_jv wf) (x :: l) (x' :: l'0) ltac:(discriminate)); [reflexivity| |].
    + assert (G : forall a b, Forall2 (fun kv kv' => fst kv = fst kv' /\ back wf nv (snd kv) (snd kv')) a b -> (forall y, In y a -> In y (x :: l)) ->
                Forall2 (fun (y y' : str * jv) => fst y = fst y' /\ forall r0, stops r0 -> read_value nv d (show_jv wf (snd y) ++ r0) = Some (snd y', r0)) a b).
      { induction 1 as [|y y' a b [Ey By] Fy IHf]; intros I; constructor.
        - split; [exact Ey|]. intros r0 S0. rewrite Forall_forall in IH. apply (IH y); auto; [apply I; left; reflexivity|].
          pose proof (max_in (depth (snd y)) (map (fun kv => depth (snd kv)) (x :: l)) (in_map (fun kv => depth (snd kv)) _ _ (I y (or_introl eq_refl)))). lia.
        - apply IHf. intros z Iz. apply I. right. exact Iz. }
      apply G; [exact F|auto].
    + rewrite !app_length. rewrite <- HJ. cbn [length list_ascii_of_string] in LL |- *. lia.
Qed.
