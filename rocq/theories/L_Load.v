(** Lemmas about loading a workspace directory. *)
From Coq Require Import Lia.
From Verif Require Import S_Server L_Str L_Text L_DslStr L_Fs L_Server.
Close Scope Z_scope.

(** ** Names *)
Lemma firm_file_spec n : is_firm_file n = true <-> firm_file_name n.
Proof.
  unfold is_firm_file, extension, firm_file_name. split.
  - destruct (split_once "." (rev n)) as [[e [|x r]]|] eqn:E; try discriminate. apply split_once_spec in E as (E & _).
    destruct (str_eqb n (L "..")); [discriminate|]. intros H. apply str_eqb_eq in H. exists (rev (x :: r)). split; [cbn [rev]; destruct (rev r); discriminate|].
    rewrite <- (rev_involutive n), E, rev_app_distr. cbn [rev]. rewrite H, <- !app_assoc. reflexivity.
  - intros (a & N & ->). rewrite rev_app_distr. change (rev (L ".firm")) with (rev (L "firm") ++ ["."%char]). rewrite <- app_assoc.
    change (["."%char] ++ rev a) with ("."%char :: rev a).
    rewrite split_once_app by (cbn; intuition discriminate).
    destruct (rev a) as [|x r] eqn:E; [apply (f_equal (@rev ascii)) in E; rewrite rev_involutive in E; cbn in E; congruence|].
    destruct (str_eqb (a ++ L ".firm") (L "..")) eqn:Q; [|rewrite rev_involutive; apply str_eqb_refl].
    apply str_eqb_eq in Q. apply (f_equal (@length ascii)) in Q. rewrite app_length in Q. cbn in Q. lia.
Qed.
Lemma path_text_inj p q : slashless p -> slashless q -> p <> [] -> q <> [] -> path_text p = path_text q -> p = q.
Proof.
  intros A B N M E. unfold path_text in E. rewrite <- (split_char_join "/" p), <- (split_char_join "/" q); auto.
  apply (f_equal (split_char "/")) in E. exact E.
Qed.

(** ** Listing *)
Lemma child_name_spec q p c : child_name q p = Some c <-> p = q ++ [c].
Proof.
  unfold child_name. destruct p as [|x p _] using rev_ind; cbn [rev].
  - split; [discriminate|]. intros E. destruct q; discriminate.
  - rewrite rev_unit, rev_involutive. destruct (place_eqb p q) eqn:E.
    + apply place_eqb_eq in E as ->. split; [intros [= ->]; reflexivity|]. intros E. apply app_inj_tail in E as [_ ->]. reflexivity.
    + split; [discriminate|]. intros X. apply app_inj_tail in X as [-> _]. rewrite place_eqb_refl in E. discriminate.
Qed.
Lemma entry_in d p n : tidy d -> (entry_at d p = Some n <-> In (p, n) d).
Proof.
  unfold tidy. induction d as [|[q m] d IH]; cbn [map fst entry_at In]; intros T; [split; [discriminate|tauto]|].
  inversion T as [|? ? T1 T2]; subst. destruct (place_eqb q p) eqn:E.
  - apply place_eqb_eq in E as ->. split; [intros [= ->]; auto|]. intros [[= ->]|H]; [reflexivity|].
    exfalso. apply T1. apply in_map_iff. exists (p, n). auto.
  - rewrite IH by exact T2. split; [auto|]. intros [[= -> ->]|H]; [rewrite place_eqb_refl in E; discriminate|exact H].
Qed.
Lemma entry_listed d p : entry_at d p <> None <-> In p (map fst d).
Proof.
  induction d as [|[q m] d IH]; cbn [map fst entry_at In]; [split; [congruence|tauto]|].
  destruct (place_eqb q p) eqn:E; [apply place_eqb_eq in E as ->; split; [auto|discriminate]|]. apply place_eqb_neq in E.
  rewrite IH. split; [auto|]. intros [Q|H]; [congruence|exact H].
Qed.
Definition names_in (d : fs) (q : place) : list str :=
  flat_map (fun e => match child_name q (fst e) with Some c => [c] | None => [] end) d.
Lemma names_spec d q c : In c (names_in d q) <-> node_at d (q ++ [c]) <> None.
Proof.
  assert (NE : node_at d (q ++ [c]) = entry_at d (q ++ [c])) by (destruct q; reflexivity). rewrite NE, entry_listed.
  unfold names_in. rewrite in_flat_map, in_map_iff. split.
  - intros (e & I & H). destruct (child_name q (fst e)) as [x|] eqn:E; [|destruct H]. destruct H as [->|[]]. apply child_name_spec in E. exists e. auto.
  - intros (e & E & I). exists e. split; [exact I|]. apply child_name_spec in E. rewrite E. left. reflexivity.
Qed.
Lemma names_nodup d q : tidy d -> NoDup (names_in d q).
Proof.
  unfold tidy, names_in. induction d as [|[p m] d IH]; cbn [map fst flat_map]; intros T; [constructor|].
  inversion T as [|? ? T1 T2]; subst. destruct (child_name q p) as [x|] eqn:E; cbn [app]; [|auto]. constructor; [|auto].
  intros H. apply child_name_spec in E as ->. apply in_flat_map in H as (e & I & H).
  destruct (child_name q (fst e)) as [y|] eqn:E; [|destruct H]. destruct H as [->|[]]. apply child_name_spec in E.
  apply T1. apply in_map_iff. exists e. auto.
Qed.

(** ** Loading *)
Lemma Forall2_in_l {A B} (R : A -> B -> Prop) l m a : Forall2 R l m -> In a l -> exists b, In b m /\ R a b.
Proof. induction 1 as [|x y l m H F IH]; intros []; [subst; exists y; cbn; auto|]. destruct IH as (b & I & Q); auto. exists b. cbn. auto. Qed.
Lemma Forall2_in_r {A B} (R : A -> B -> Prop) l m b : Forall2 R l m -> In b m -> exists a, In a l /\ R a b.
Proof. induction 1 as [|x y l m H F IH]; intros []; [subst; exists x; cbn; auto|]. destruct IH as (a & I & Q); auto. exists a. cbn. auto. Qed.
Lemma sound_names d p : sound d -> node_at d p <> None -> Forall proper_name p.
Proof.
  intros S. induction p as [|c p IH] using rev_ind; intros N; [constructor|]. destruct (S p c N) as [D P].
  apply Forall_app. split; [apply IH; congruence|auto].
Qed.
Lemma proper_slashless p : Forall proper_name p -> slashless p.
Proof. intros H. eapply Forall_impl; [|exact H]. intros c (_ & _ & _ & N). exact N. Qed.
Lemma below_slashless d w r : sound d -> node_at d (w ++ r) <> None -> slashless r.
Proof. intros S N. apply sound_names in N; auto. apply Forall_app in N as [_ N]. apply proper_slashless. exact N. Qed.
Lemma resolve_below c d w r : runs_in c d w -> no_links_in w d -> node_at d (w ++ r) <> None -> resolve (c_links c) d (c_ws c ++ r) = At (w ++ r).
Proof.
  intros (S & SL & W & D) NL N. unfold resolve in *.
  destruct (walk_then d (c_links c) [] (c_ws c) w S ltac:(discriminate) W) as (k' & Sp). rewrite (Sp d _ (extends_refl d)).
  apply walk_place; auto. intros t p q E. destruct (app_prefix _ _ _ _ E) as [(z & ->)|(z & Nz & ->)].
  - destruct z as [|x z]; [rewrite app_nil_r in D; congruence|]. rewrite (sound_prefix d p (x :: z) S); congruence.
  - apply NL. exists z. reflexivity.
Qed.
Lemma forall2_impl {A B} (R Q : A -> B -> Prop) l m : (forall a b, R a b -> Q a b) -> Forall2 R l m -> Forall2 Q l m.
Proof. intros H. induction 1; constructor; auto. Qed.
Lemma nodup_app {A} (l m : list A) : NoDup l -> NoDup m -> (forall x, In x l -> ~ In x m) -> NoDup (l ++ m).
Proof.
  induction 1 as [|x l N H IH]; intros M D; cbn [app]; [exact M|]. constructor.
  - intros I. apply in_app_iff in I as [I|I]; [contradiction|]. apply (D x); [left; reflexivity|exact I].
  - apply IH; auto. intros y I. apply D. right. exact I.
Qed.
Lemma nodup_parts (c : ctx) (rel : path) (names : list str) (parts : list files) : slashless (c_ws c) ->
  NoDup names -> Forall2 (fun name part => NoDup (map fst part) /\
    forall e, In e part -> exists r, fst e = path_text (c_ws c ++ rel ++ name :: r) /\ slashless (rel ++ name :: r)) names parts ->
  NoDup (map fst (concat parts)).
Proof.
  intros SL N F. induction F as [|name part names parts (N1 & H) F IH]; cbn [concat map]; [constructor|].
  inversion N as [|? ? N2 N3]; subst. rewrite map_app. apply nodup_app; [exact N1|apply IH; exact N3|].
  intros t I1 I2. apply in_map_iff in I1 as (e1 & <- & I1). apply in_map_iff in I2 as (e2 & E & I2).
  destruct (H e1 I1) as (r1 & E1 & S1). apply in_concat in I2 as (part2 & P & I2).
  destruct (Forall2_in_r _ _ _ _ F P) as (name2 & J & _ & H2). destruct (H2 e2 I2) as (r2 & E2 & S2).
  rewrite E1, E2 in E. apply path_text_inj in E; try (apply Forall_app; split; assumption); try (destruct (c_ws c), rel; discriminate).
  apply app_inv_head in E. apply app_inv_head in E. injection E as <- _. contradiction.
Qed.

Section Loading.
Context (c : ctx) (d : fs) (w : place) (RI : runs_in c d w) (NL : no_links_in w d) (T : tidy d).

Definition load_child (n : nat) (rel : path) (name : str) : outcome werror files :=
  match stat (c_links c) d (c_ws c ++ rel ++ [name]) with
  | Some Dir => load_dir n c d (rel ++ [name])
  | Some (File _) => if is_firm_file name then obind (load_file c d (rel ++ [name])) (fun f => Ok [f]) else Ok []
  | _ => Ok []
  end.
Lemma load_dir_step n rel : node_at d (w ++ rel) = Some Dir ->
  load_dir (S n) c d rel = obind (omap (load_child n rel) (names_in d (w ++ rel))) (fun l => Ok (concat l)).
Proof.
  intros D. cbn [load_dir]. unfold read_dir. rewrite (resolve_below c d w rel RI NL) by congruence. rewrite D. reflexivity.
Qed.
Lemma stat_below r : node_at d (w ++ r) <> None -> stat (c_links c) d (c_ws c ++ r) = node_at d (w ++ r).
Proof. intros N. unfold stat. rewrite (resolve_below c d w r RI NL N). reflexivity. Qed.
Lemma load_file_spec r s : node_at d (w ++ r) = Some (File s) ->
  load_file c d r = if is_text s then match c_parse c s with
                                      | Some ps => Ok (loaded c r ps)
                                      | None => Err (WParseError (path_text (c_ws c ++ r)))
                                      end else Err WIoError.
Proof.
  intros N. unfold load_file, read_text. rewrite stat_below by congruence. rewrite N. destruct (is_text s); reflexivity.
Qed.

Definition found_below (n : nat) (rel : path) (e : str * wfile) : Prop :=
  exists r s ps, r <> [] /\ length r <= n /\ source_of w d (rel ++ r) s /\ c_parse c s = Some ps /\ e = loaded c (rel ++ r) ps.
Definition readable_below (n : nat) (rel : path) : Prop :=
  forall r s, r <> [] -> length r <= n -> source_of w d (rel ++ r) s -> is_text s = true /\ c_parse c s <> None.

Lemma source_here rel name s : source_of w d (rel ++ [name]) s <-> node_at d (w ++ rel ++ [name]) = Some (File s) /\ is_firm_file name = true.
Proof.
  unfold source_of. rewrite firm_file_spec. split.
  - intros (N & r' & x & E & F). apply app_inj_tail in E as [<- <-]. auto.
  - intros (N & F). eauto.
Qed.
(** What is below a directory is below one of its entries. *)
Lemma source_first rel r s : source_of w d (rel ++ r) s -> r <> [] -> exists name r', r = name :: r' /\ In name (names_in d (w ++ rel)) /\
  source_of w d ((rel ++ [name]) ++ r') s /\ (r' <> [] -> node_at d (w ++ rel ++ [name]) = Some Dir).
Proof.
  intros H N. destruct r as [|name r']; [congruence|]. exists name, r'. split; [reflexivity|].
  assert (E : rel ++ name :: r' = (rel ++ [name]) ++ r') by (rewrite <- app_assoc; reflexivity). rewrite E in H.
  pose proof RI as (S & _). assert (Q : r' <> [] -> node_at d (w ++ rel ++ [name]) = Some Dir).
  { intros Nr. destruct H as (H & _). rewrite app_assoc in H. eapply sound_prefix; eauto. congruence. }
  split; [|split; [exact H|exact Q]]. apply names_spec. rewrite <- app_assoc. destruct r' as [|x r']; [|rewrite Q; discriminate].
  rewrite app_nil_r in H. destruct H as (H & _). congruence.
Qed.

Lemma load_child_spec n rel name :
  (forall fs, node_at d (w ++ rel ++ [name]) = Some Dir -> load_dir n c d (rel ++ [name]) = Ok fs ->
     NoDup (map fst fs) /\ (forall e, In e fs <-> found_below n (rel ++ [name]) e) /\ readable_below n (rel ++ [name])) ->
  In name (names_in d (w ++ rel)) -> forall fs, load_child n rel name = Ok fs ->
  NoDup (map fst fs) /\
  (forall e, In e fs <-> exists r s ps, length r <= n /\ source_of w d ((rel ++ [name]) ++ r) s /\ c_parse c s = Some ps /\ e = loaded c ((rel ++ [name]) ++ r) ps) /\
  (forall r s, length r <= n -> source_of w d ((rel ++ [name]) ++ r) s -> is_text s = true /\ c_parse c s <> None).
Proof.
  intros IH I fs. apply names_spec in I. rewrite <- app_assoc in I. unfold load_child. rewrite stat_below by exact I.
  assert (Leaf : forall r s, node_at d (w ++ rel ++ [name]) <> Some Dir -> source_of w d ((rel ++ [name]) ++ r) s -> r = []).
  { intros r s ND (H & _). destruct r as [|x r]; [reflexivity|]. exfalso. apply ND. rewrite app_assoc in H. pose proof RI as (S & _).
    apply (sound_prefix d _ (x :: r) S); [rewrite H; discriminate|discriminate]. }
  destruct (node_at d (w ++ rel ++ [name])) as [[s| |t]|] eqn:E.
  - destruct (is_firm_file name) eqn:F.
    + rewrite (load_file_spec _ s E). destruct (is_text s) eqn:TX; [|discriminate]. destruct (c_parse c s) as [ps|] eqn:P; [|discriminate]. cbn [obind].
      intros [= <-]. split; [repeat constructor; auto|]. assert (SO : source_of w d (rel ++ [name]) s) by (apply source_here; auto). split.
      * intros e. split.
        -- intros [<-|[]]. exists [], s, ps. rewrite app_nil_r. split; [cbn [length]; lia|]. auto.
        -- intros (r & s' & ps' & _ & SO' & P' & ->). pose proof (Leaf r s' ltac:(discriminate) SO') as ->. rewrite app_nil_r in *.
           assert (s' = s) by (destruct SO' as (H & _); congruence). subst s'. left. congruence.
      * intros r s' _ SO'. pose proof (Leaf r s' ltac:(discriminate) SO') as ->. rewrite app_nil_r in *.
        assert (s' = s) by (destruct SO' as (H & _); congruence). subst s'. split; congruence.
    + intros [= <-]. split; [constructor|]. assert (No : forall r s', ~ source_of w d ((rel ++ [name]) ++ r) s').
      { intros r s' SO'. pose proof (Leaf r s' ltac:(discriminate) SO') as ->. rewrite app_nil_r in SO'. apply source_here in SO' as [_ SO']. congruence. }
      split; [|intros r s' _ SO'; exfalso; exact (No _ _ SO')]. intros e. split; [intros []|].
      intros (r & s' & ps' & _ & SO' & _). exfalso. exact (No _ _ SO').
  - intros H. destruct (IH fs eq_refl H) as (A & B & C). split; [exact A|].
    assert (Nn : forall r s, source_of w d ((rel ++ [name]) ++ r) s -> r <> []).
    { intros r s (Q & _) ->. rewrite app_nil_r in Q. congruence. }
    split.
    + intros e. rewrite B. split.
      * intros (r & s & ps & _ & Lr & R). eauto.
      * intros (r & s & ps & Lr & SO & R). exists r, s, ps. split; [eapply Nn; exact SO|]. auto.
    + intros r s Lr SO. apply (C r s (Nn r s SO) Lr SO).
  - exfalso. apply (NL (w ++ rel ++ [name]) t); [exists (rel ++ [name]); reflexivity|exact E].
  - congruence.
Qed.
Lemma load_dir_spec n : forall rel fs, node_at d (w ++ rel) = Some Dir -> load_dir n c d rel = Ok fs ->
  NoDup (map fst fs) /\ (forall e, In e fs <-> found_below n rel e) /\ readable_below n rel.
Proof.
  induction n as [|n IH]; intros rel fs D H.
  - cbn [load_dir] in H. injection H as <-. split; [constructor|]. split.
    + intros e. split; [intros []|]. intros ([|x r] & s & ps & N & Lr & _); [congruence|cbn [length] in Lr; lia].
    + intros [|x r] s N Lr _; [congruence|cbn [length] in Lr; lia].
  - rewrite load_dir_step in H by exact D. destruct (omap (load_child n rel) (names_in d (w ++ rel))) as [parts|e|] eqn:O; try discriminate.
    cbn [obind] in H. injection H as <-. apply omap_ok in O.
    assert (SP : Forall2 (fun name part => NoDup (map fst part) /\
      (forall e, In e part <-> exists r s ps, length r <= n /\ source_of w d ((rel ++ [name]) ++ r) s /\ c_parse c s = Some ps /\ e = loaded c ((rel ++ [name]) ++ r) ps) /\
      (forall r s, length r <= n -> source_of w d ((rel ++ [name]) ++ r) s -> is_text s = true /\ c_parse c s <> None)) (names_in d (w ++ rel)) parts).
    { assert (X : forall name, In name (names_in d (w ++ rel)) -> In name (names_in d (w ++ rel))) by auto. revert X O.
      generalize (names_in d (w ++ rel)) at 1 3 4 as ns. intros ns X O. induction O as [|name part ns ps H O IHO]; constructor.
      - apply (load_child_spec n rel name); [intros fs Dn Ln; apply IH; auto|apply X; left; reflexivity|exact H].
      - apply IHO. intros m Hm. apply X. right. exact Hm. }
    pose proof RI as (Sd & SL & _). split; [|split].
    + apply (nodup_parts c rel (names_in d (w ++ rel))); auto using names_nodup. eapply forall2_impl; [|exact SP].
      intros name part (A & B & _). split; [exact A|]. intros e I. apply B in I as (r & s & ps & _ & (N & _) & _ & ->). exists r.
      assert (E : (rel ++ [name]) ++ r = rel ++ name :: r) by (rewrite <- app_assoc; reflexivity). rewrite E in *.
      split; [reflexivity|]. eapply below_slashless; [exact Sd|]. rewrite N. discriminate.
    + intros e. rewrite in_concat. split.
      * intros (part & P & I). destruct (Forall2_in_r _ _ _ _ SP P) as (name & J & _ & B & _). destruct (proj1 (B e) I) as (r & s & ps & Lr & SO & Pp & Ee).
        assert (E : (rel ++ [name]) ++ r = rel ++ name :: r) by (rewrite <- app_assoc; reflexivity). rewrite E in *.
        exists (name :: r), s, ps. split; [discriminate|]. cbn [length]. split; [lia|]. auto.
      * intros (r & s & ps & N & Lr & SO & Pp & ->). destruct (source_first rel r s SO N) as (name & r' & -> & J & SO' & _).
        destruct (Forall2_in_l _ _ _ _ SP J) as (part & P & _ & B & _). exists part. split; [exact P|]. apply B. exists r', s, ps.
        cbn [length] in Lr. split; [lia|]. split; [exact SO'|]. split; [exact Pp|]. rewrite <- app_assoc. reflexivity.
    + intros r s N Lr SO. destruct (source_first rel r s SO N) as (name & r' & -> & J & SO' & _).
      destruct (Forall2_in_l _ _ _ _ SP J) as (part & P & _ & _ & C). cbn [length] in Lr. apply (C r' s); auto. lia.
Qed.
Lemma load_dir_success n : forall rel, node_at d (w ++ rel) = Some Dir -> readable_below n rel -> exists fs, load_dir n c d rel = Ok fs.
Proof.
  induction n as [|n IH]; intros rel D H; [cbn [load_dir]; eauto|]. rewrite load_dir_step by exact D.
  assert (Q : forall name, In name (names_in d (w ++ rel)) -> exists fs, load_child n rel name = Ok fs).
  { intros name I. apply names_spec in I. rewrite <- app_assoc in I. unfold load_child. rewrite stat_below by exact I.
    destruct (node_at d (w ++ rel ++ [name])) as [[s| |t]|] eqn:E; eauto.
    - destruct (is_firm_file name) eqn:F; [|eauto]. rewrite (load_file_spec _ s E).
      destruct (H [name] s ltac:(discriminate) ltac:(cbn [length]; lia) (proj2 (source_here rel name s) (conj E F))) as (-> & P).
      destruct (c_parse c s); [cbn [obind]; eauto|congruence].
    - apply IH; [exact E|]. intros r s N Lr SO. apply (H (name :: r) s); [discriminate|cbn [length]; lia|].
      replace (rel ++ name :: r) with ((rel ++ [name]) ++ r) by (rewrite <- app_assoc; reflexivity). exact SO. }
  assert (O : exists parts, omap (load_child n rel) (names_in d (w ++ rel)) = Ok parts).
  { revert Q. generalize (names_in d (w ++ rel)). intros ns Q. induction ns as [|name ns IHn]; [exists []; reflexivity|].
    destruct (Q name (or_introl eq_refl)) as (f & Hf). destruct IHn as (parts & Hp); [intros m Hm; apply Q; right; exact Hm|].
    exists (f :: parts). rewrite omap_cons, Hf, Hp. reflexivity. }
  destruct O as (parts & ->). cbn [obind]. eauto.
Qed.
End Loading.

Lemma depth_bound d p : sound d -> node_at d p <> None -> length p <= length d.
Proof.
  intros S N. assert (I : incl (map (fun k => firstn k p) (seq 1 (length p))) (map fst d)).
  { intros q H. apply in_map_iff in H as (k & <- & K). apply in_seq in K. apply entry_listed.
    assert (X : node_at d (firstn k p) <> None).
    { rewrite <- (firstn_skipn k p) in N. destruct (skipn k p) as [|x r] eqn:E; [rewrite app_nil_r in N; exact N|].
      rewrite (sound_prefix d _ _ S N); discriminate. }
    destruct (firstn k p) eqn:E; [|exact X]. apply (f_equal (@length str)) in E. rewrite firstn_length in E. cbn in E. lia. }
  apply NoDup_incl_length in I; [rewrite !map_length, seq_length in I; exact I|].
  assert (G : forall a m, a + m <= 1 + length p -> NoDup (map (fun k => firstn k p) (seq a m))).
  { intros a m. revert a. induction m as [|m IH]; intros a Q; cbn [seq map]; constructor; [|apply IH; lia].
    intros H. apply in_map_iff in H as (k & E & K). apply in_seq in K. apply (f_equal (@length str)) in E. rewrite !firstn_length in E. lia. }
  apply G. lia.
Qed.
Theorem load_directory_spec c d w fs : runs_in c d w -> no_links_in w d -> tidy d -> load_directory c d = Ok fs ->
  NoDup (map fst fs) /\
  (forall e, In e fs <-> exists r s ps, source_of w d r s /\ c_parse c s = Some ps /\ e = loaded c r ps) /\
  (forall r s, source_of w d r s -> is_text s = true /\ c_parse c s <> None).
Proof.
  intros RI NL T H. pose proof RI as (S & _ & _ & D). unfold load_directory in H.
  set (n := Datatypes.S (c_links c) * Datatypes.S (length d)) in H.
  assert (B : forall r s, source_of w d r s -> r <> [] /\ length r <= n).
  { intros r s (N & r' & x & -> & _). split; [destruct r'; discriminate|]. assert (Q : node_at d (w ++ r' ++ [x]) <> None) by congruence.
    apply depth_bound in Q; auto. rewrite app_length in Q. unfold n. nia. }
  destruct (load_dir_spec c d w RI NL T n [] fs) as (A & B1 & C); [rewrite app_nil_r; exact D|exact H|].
  split; [exact A|]. split.
  - intros e. rewrite B1. unfold found_below. cbn [app]. split.
    + intros (r & s & ps & _ & _ & R). eauto.
    + intros (r & s & ps & SO & R). destruct (B r s SO). exists r, s, ps. auto.
  - intros r s SO. destruct (B r s SO). apply (C r s); auto.
Qed.
Theorem load_directory_success c d w : runs_in c d w -> no_links_in w d ->
  (forall r s, source_of w d r s -> is_text s = true /\ c_parse c s <> None) -> exists fs, load_directory c d = Ok fs.
Proof.
  intros RI NL H. pose proof RI as (S & _ & _ & D). apply (load_dir_success c d w RI NL); [rewrite app_nil_r; exact D|].
  intros r s _ _ SO. apply (H r s). exact SO.
Qed.
