(** Lemmas: what is shown apart is apart. *)
From Coq Require Import Lia.
From Verif Require Import M_Graph M_Dsl M_Json S_Json S_Show L_Str L_Num L_Ids L_DslVal L_Json L_Json2 L_GraphJson.
Close Scope Z_scope.

(** ** Labels *)
Lemma upper_back c : is_upper c = false -> lower_ascii (upper_ascii c) = c.
Proof. destruct c as [[] [] [] [] [] [] [] []]; intros H; (discriminate H || reflexivity). Qed.
Lemma upper_sep c : is_sep (upper_ascii c) = is_sep c.
Proof. destruct c as [[] [] [] [] [] [] [] []]; reflexivity. Qed.
Lemma upper_alpha c : is_alpha (upper_ascii c) = is_alpha c.
Proof. destruct c as [[] [] [] [] [] [] [] []]; reflexivity. Qed.
Lemma upper_digit c : is_digit (upper_ascii c) = is_digit c.
Proof. destruct c as [[] [] [] [] [] [] [] []]; reflexivity. Qed.
Lemma boundary_capital c d r : mixed c d = false -> is_upper d = false -> boundary (upper_ascii c) (d :: r) = false.
Proof.
  intros M U. unfold boundary. rewrite U. unfold mixed in M. rewrite <- (upper_alpha c), <- (upper_digit c) in M. set (e := upper_ascii c) in *. clearbody e. unfold is_alpha in M. rewrite U in M.
  destruct (is_lower e), (is_upper e), (is_digit e), (is_lower d), (is_digit d); cbn in *; congruence.
Qed.
(** A calm lower-case word, perhaps with a capital, followed by a blank. *)
Lemma words_blank w r : calm w -> no_upper w -> split_words (w ++ " "%char :: r) = w :: split_words r.
Proof.
  induction w as [|c w IH]; intros C U; [reflexivity|]. cbn [app split_words]. destruct C as (C1 & C2 & C3). rewrite C1.
  assert (B : boundary c (w ++ " "%char :: r) = false).
  { destruct w as [|d w]; cbn [app]; [apply boundary_other; reflexivity|]. apply boundary_calm; auto; apply U; cbn; auto. }
  rewrite B, IH; auto. intros x Hx; apply U; right; auto.
Qed.
Lemma words_join ws : ws <> [] -> Forall calm ws -> Forall no_upper ws -> split_words (join (L " ") ws) = ws.
Proof.
  induction ws as [|w ws IH]; [congruence|]. intros _ C U. inversion C; inversion U; subst. destruct ws as [|w2 ws].
  - cbn. apply split_words_last; auto.
  - change (join (L " ") (w :: w2 :: ws)) with (w ++ " "%char :: join (L " ") (w2 :: ws)). rewrite words_blank, IH; auto; congruence.
Qed.
Lemma capital_words c s : is_sep c = false -> match s with d :: _ => mixed c d = false /\ is_upper d = false \/ is_sep d = true | [] => True end ->
  split_words (c :: s) <> [] -> forall w ws, boundary c s = false -> split_words (c :: s) = (c :: w) :: ws -> split_words (upper_ascii c :: s) = (upper_ascii c :: w) :: ws.
Proof.
  intros Sc H _ w ws B E. cbn [split_words] in *. rewrite upper_sep, Sc in *. rewrite B in E.
  assert (B' : boundary (upper_ascii c) s = false).
  { destruct s as [|d s]; [reflexivity|]. destruct H as [[M U] | S]; [apply boundary_capital; auto|]. apply boundary_other. destruct d as [[] [] [] [] [] [] [] []]; try discriminate S; reflexivity. }
  rewrite B'. destruct (split_words s) as [|v vs]; [injection E as <- <-; reflexivity|]. injection E as <- <-. reflexivity.
Qed.
Lemma sentence_words ws : Forall normal_word ws -> to_snake (match ws with [] => [] | w :: ws => join (L " ") (capital w :: ws) end) = join (L "_") ws.
Proof.
  intros N. destruct ws as [|w ws]; [reflexivity|]. pose proof (Forall_inv N) as (NE & C & U). destruct w as [|c w]; [congruence|].
  assert (J : split_words (join (L " ") ((c :: w) :: ws)) = (c :: w) :: ws).
  { apply words_join; [congruence| |]; (eapply Forall_impl; [|exact N]); intros x (_ & A & B); auto. }
  assert (E : forall c', exists s, join (L " ") ((c' :: w) :: ws) = c' :: s /\ s = match ws with [] => w | _ => w ++ " "%char :: join (L " ") ws end).
  { intros c'. destruct ws; eexists; split; reflexivity. }
  assert (LW : lower w = w) by (apply no_upper_id; intros x I; apply U; right; exact I).
  cbn [capital]. rewrite LW. destruct (E c) as (s & E1 & Es). destruct (E (upper_ascii c)) as (s' & E2 & Es'). rewrite <- Es in Es'. subst s'. rewrite E1 in J. destruct C as (C1 & C2 & C3).
  assert (H : match s with d :: _ => mixed c d = false /\ is_upper d = false \/ is_sep d = true | [] => True end).
  { rewrite Es. destruct w as [|d w]; destruct ws; cbn [app]; auto; left; split; auto; apply U; cbn; auto. }
  assert (B : boundary c s = false).
  { destruct s as [|d s]; [reflexivity|]. destruct H as [[M Ud] | Sd]; [apply boundary_calm; auto; apply U; left; reflexivity|]. apply boundary_other. destruct d as [[] [] [] [] [] [] [] []]; try discriminate Sd; reflexivity. }
  unfold to_snake. match goal with |- context [split_words ?j] => replace j with (upper_ascii c :: s) by (symmetry; exact E2) end. rewrite (capital_words c s C1 H (split_words_not_nil _) w ws B J).
  cbn [filter non_empty]. assert (F : filter non_empty ws = ws). { apply filter_all. eapply Forall_impl; [|exact (Forall_inv_tail N)]. intros x (A & _). destruct x; [congruence|reflexivity]. }
  rewrite F. cbn [map]. rewrite map_lower_id. 2:{ eapply Forall_impl; [|exact (Forall_inv_tail N)]. intros x (_ & _ & A). exact A. }
  change (lower (upper_ascii c :: w)) with (lower_ascii (upper_ascii c) :: lower w). rewrite LW, upper_back by (apply U; left; reflexivity). reflexivity.
Qed.
Lemma label_name f : new_id (sentence f) = new_id f.
Proof.
  unfold new_id. rewrite (to_snake_words f). rewrite <- (sentence_words (snake_words f) (snake_words_normal f)). f_equal.
  unfold sentence, snake_words. destruct (filter non_empty (split_words f)) as [|w ws]; [reflexivity|]. cbn [map]. do 2 f_equal. unfold capital, lower.
  destruct w as [|c w]; [reflexivity|]. cbn [map]. rewrite map_map. f_equal.
  - destruct c as [[] [] [] [] [] [] [] []]; reflexivity.
  - apply map_ext. intros x. destruct x as [[] [] [] [] [] [] [] []]; reflexivity.
Qed.

(** ** Cutting texts *)
Lemma cut_at (q : ascii) a b r s : ~ In q a -> ~ In q b -> a ++ q :: r = b ++ q :: s -> a = b /\ r = s.
Proof.
  revert b. induction a as [|c a IH]; intros b A B E; destruct b as [|d b]; cbn [app] in E.
  - injection E as <-. auto.
  - injection E as <- _. destruct B. left. reflexivity.
  - injection E as -> _. destruct A. left. reflexivity.
  - injection E as <- E. destruct (IH b) as [-> ->]; auto; intros I; [apply A|apply B]; right; exact I.
Qed.
Lemma cut_two (q p : ascii) a b r s : ~ In q a -> ~ In q b -> a ++ q :: p :: r = b ++ q :: p :: s -> a = b /\ r = s.
Proof. intros A B E. apply cut_at in E as [-> E]; auto. injection E as <-. auto. Qed.
Lemma join_apart (q : ascii) rest (l m : list str) : l <> [] -> m <> [] -> Forall (fun t => ~ In q t) l -> Forall (fun t => ~ In q t) m ->
  join (q :: rest) l = join (q :: rest) m -> l = m.
Proof.
  revert m. induction l as [|x l IH]; intros m L0 M0 FL FM E; [congruence|]. destruct m as [|y m]; [congruence|]. inversion FL; inversion FM; subst.
  destruct l as [|x2 l], m as [|y2 m].
  - cbn in E. congruence.
  - cbn [join] in E. destruct H1. rewrite E. apply in_or_app. right. left. reflexivity.
  - cbn [join] in E. destruct H5. rewrite <- E. apply in_or_app. right. left. reflexivity.
  - rewrite !join_cons in E by discriminate. cbn [app] in E. apply cut_at in E as [-> E]; auto. apply app_inv_head in E. f_equal. apply IH; auto; discriminate.
Qed.
Lemma join_apart_full (q : ascii) rest (l m : list str) : Forall (fun t => t <> [] /\ ~ In q t) l -> Forall (fun t => t <> [] /\ ~ In q t) m ->
  join (q :: rest) l = join (q :: rest) m -> l = m.
Proof.
  intros FL FM E.
  assert (G : forall k, Forall (fun t => t <> [] /\ ~ In q t) k -> join (q :: rest) k = [] -> k = []).
  { intros [|x k] F J; [reflexivity|]. inversion F as [|? ? [N _] _]; subst. destruct k; [cbn in J; congruence|]. rewrite join_cons in J by discriminate. destruct x; [congruence|discriminate J]. }
  destruct l as [|x l]; [symmetry; apply G; auto|]. destruct m as [|y m]; [apply G; auto|].
  apply (join_apart q rest); auto; try discriminate; (eapply Forall_impl; [|eassumption]); intros t [_ A]; exact A.
Qed.
Lemma join_without (q : ascii) sep (l : list str) : ~ In q sep -> Forall (fun t => ~ In q t) l -> ~ In q (join sep l).
Proof. intros S F I. apply join_In in I as [I | (w & Iw & I)]; [auto|]. rewrite Forall_forall in F. exact (F w Iw I). Qed.

(** ** Values *)
Lemma show_Z_apart z w : in_i64 z = true -> in_i64 w = true -> show_Z z = show_Z w -> z = w.
Proof. intros Z W E. pose proof (parse_show_Z z Z) as A. rewrite E, (parse_show_Z w W) in A. congruence. Qed.
Lemma shown_offset_back off : (exists m, - 1440 < m < 1440 /\ off = m * 60)%Z -> take_offset (shown_offset off) = Some off.
Proof.
  intros (m & B & E). destruct (Z.eq_dec off 0) as [Z0|NZ]; [subst off; rewrite Z0; reflexivity|]. rewrite <- (take_offset_text off) by eauto. f_equal. unfold shown_offset, offset_text.
  destruct (Z.eqb_spec off 0); [congruence|]. assert (Q : (Z.abs off / 60 = (Z.abs off + 30) / 60)%Z).
  { subst off. replace (Z.abs (m * 60)) with (Z.abs m * 60)%Z by lia. rewrite Z.div_mul by lia. replace (Z.abs m * 60 + 30)%Z with (30 + Z.abs m * 60)%Z by lia. rewrite Z.div_add by lia. reflexivity. }
  rewrite Q. reflexivity.
Qed.
Lemma app_same_length {A} (a b r s : list A) : length a = length b -> a ++ r = b ++ s -> a = b /\ r = s.
Proof.
  revert b. induction a as [|x a IH]; intros [|y b] L E; try discriminate L; [auto|]. cbn in E. injection E as <- E. injection L as L. destruct (IH b L E) as [-> ->]. auto.
Qed.
Lemma date_length k : length (format_date k) = 10.
Proof. unfold format_date. destruct (civil_of_days k) as [[y m] d]. rewrite !app_length, !padded_length. reflexivity. Qed.
Lemma clock_length k : length (clock_text k) = 8.
Proof. unfold clock_text. rewrite !app_length, !padded_length. reflexivity. Qed.
Lemma padded_is_digits k n : Forall (fun c => is_digit c = true) (padded k n).
Proof.
  pose proof (padded_length k n) as H. clear H. revert n. induction k as [|k IH]; intros n; [constructor|]. cbn [padded]. apply Forall_app. split; [apply IH|]. constructor; [|constructor].
  assert (n mod 10 < 10)%N by (apply N.mod_lt; lia). unfold digit. destruct (n mod 10)%N as [|p]; [reflexivity|]. do 4 (destruct p as [p|p|]; try reflexivity; try lia).
Qed.
Lemma fraction_no_blank n : ~ In " "%char (fraction_text n).
Proof.
  assert (P : forall k m, ~ In " "%char (padded k m)). { intros k m I. pose proof (padded_is_digits k m) as F. rewrite Forall_forall in F. specialize (F _ I). discriminate F. }
  unfold fraction_text. destruct (_ =? _)%N; [intros []|]. destruct (_ =? _)%N; [|destruct (_ =? _)%N]; (intros I; apply in_app_or in I as [[I|[]] | I]; [discriminate I|exact (P _ _ I)]).
Qed.
Lemma show_date_apart d e : storable_date d -> storable_date e -> show_date d = show_date e -> d = e.
Proof.
  intros D E H. unfold show_date in H. apply app_same_length in H as [H1 H]; [|rewrite !date_length; reflexivity]. apply app_inv_head in H.
  apply app_same_length in H as [H2 H]; [|rewrite !clock_length; reflexivity]. change (L " " ++ shown_offset (dt_off d)) with (" "%char :: shown_offset (dt_off d)) in H. change (L " " ++ shown_offset (dt_off e)) with (" "%char :: shown_offset (dt_off e)) in H. apply cut_at in H as [H3 H4]; try apply fraction_no_blank.
  assert (O : dt_off d = dt_off e). { destruct D as (_ & _ & D), E as (_ & _ & E). pose proof (shown_offset_back _ D) as X. rewrite H4, (shown_offset_back _ E) in X. congruence. }
  pose proof (datetime_back d D) as X. unfold datetime_text in X. rewrite H1, H2, H3, O in X. fold (datetime_text e) in X. rewrite (datetime_back e E) in X. congruence.
Qed.
Lemma entity_dots id : entity_name id -> forall f, ~ entity_name (id ++ "."%char :: f).
Proof.
  intros (t & i & -> & T & I) f (t' & i' & E & T' & I'). cbn [list_ascii_of_string app] in E. rewrite <- app_assoc in E. cbn [app] in E. apply cut_at in E as [-> E]; auto. apply I'. rewrite <- E. apply in_or_app. right. left. reflexivity.
Qed.
Lemma item_apart x v w : faithful x -> clear_item v -> clear_item w -> get_type v = get_type w -> show_value x v = show_value x w -> v = w.
Proof.
  intros [FF FC] V W T E. destruct v as [b|s|z|f|a k|[i|i g]|vs|d|p|s], w as [b'|s'|z'|f'|a' k'|[i'|i' g']|vs'|d'|p'|s']; try discriminate T; cbn [show_value clear_item] in *; try contradiction.
  - destruct b, b'; try discriminate E; reflexivity.
  - f_equal. exact E.
  - f_equal. apply show_Z_apart; auto.
  - f_equal. apply FF; auto.
  - cbn [list_ascii_of_string app] in E. apply cut_at in E as [E1 E2]; try apply show_dec_no_space. apply FC in E2. subst k'. f_equal.
    pose proof (dec_survives a V) as X. rewrite E1, (dec_survives a' W) in X. congruence.
  - cbn [show_ref list_ascii_of_string app] in E. do 2 f_equal. exact E.
  - cbn [show_ref list_ascii_of_string app] in E. subst i. destruct W as [W _]. destruct (entity_dots i' W g' V).
  - cbn [show_ref list_ascii_of_string app] in E. subst i'. destruct V as [V _]. destruct (entity_dots i V g W).
  - cbn [show_ref list_ascii_of_string app] in E. destruct V as [(t & j & -> & N1 & N2) G], W as [(t' & j' & -> & N1' & N2') G']. cbn [list_ascii_of_string] in E. rewrite <- !app_assoc in E. cbn [app] in E. apply cut_at in E as [-> E]; auto. apply cut_at in E as [-> E]; auto. subst g'. reflexivity.
  - f_equal. apply show_date_apart; auto.
  - f_equal. exact E.
  - f_equal. exact E.
Qed.
Lemma items_apart x t vs ws : faithful x -> Forall (fun u => get_type u = t) vs -> Forall (fun u => get_type u = t) ws -> Forall clear_item vs -> Forall clear_item ws ->
  map (show_value x) vs = map (show_value x) ws -> vs = ws.
Proof.
  intros F. revert ws. induction vs as [|v vs IH]; intros [|w ws] TV TW CV CW E; try discriminate E; [reflexivity|]. inversion TV; inversion TW; inversion CV; inversion CW; subst. injection E as E1 E2.
  f_equal; [|apply IH; auto]. apply (item_apart x); auto; congruence.
Qed.
Lemma value_apart x v w : faithful x -> clear x v -> clear x w -> same_kind v w -> show_value x v = show_value x w -> v = w.
Proof.
  intros F V W [T K] E. destruct v as [b|s|z|f|a k|[i|i g]|vs|d|p|s]; try (apply (item_apart x); auto; destruct w as [| | | | |[]| | | |]; auto; discriminate T).
  destruct w as [b'|s'|z'|f'|a' k'|[i'|i' g']|ws|d'|p'|s']; try discriminate T. destruct (K vs ws eq_refl eq_refl) as (t & H). apply Forall_app in H as [TV TW].
  cbn [show_value clear list_ascii_of_string app] in *. injection E as E. apply app_inv_tail in E. apply join_apart_full in E.
  - f_equal. apply (items_apart x t); auto; [eapply Forall_impl; [|exact V]|eapply Forall_impl; [|exact W]]; intros u (A & _); exact A.
  - apply Forall_forall. intros y I. apply in_map_iff in I as (u & <- & I). rewrite Forall_forall in V. apply V in I. tauto.
  - apply Forall_forall. intros y I. apply in_map_iff in I as (u & <- & I). rewrite Forall_forall in W. apply W in I. tauto.
Qed.

(** ** Entities *)
Lemma label_chars f : Forall (fun c => is_alpha c = true \/ is_digit c = true \/ c = "_"%char) f ->
  Forall (fun c => is_alpha c = true \/ is_digit c = true \/ c = " "%char) (sentence f).
Proof.
  intros F. assert (W : forall w c, In w (split_words f) -> In c w -> In c f /\ is_sep c = false).
  { intros w c Iw Ic. split.
    - assert (I : In c (unsep f)) by (rewrite <- unsep_concat_words; apply in_concat; eauto). unfold unsep in I. apply filter_In in I. tauto.
    - destruct (split_words_calm f) as [C _]. rewrite Forall_forall in C. exact (calm_no_sep w c (C w Iw) Ic). }
  assert (G : forall w c, In w (filter non_empty (split_words f)) -> In c w -> is_alpha c = true \/ is_digit c = true).
  { intros w c Iw Ic. apply filter_In in Iw as [Iw _]. destruct (W w c Iw Ic) as [If Sc]. rewrite Forall_forall in F. destruct (F c If) as [A|[A| ->]]; auto; discriminate Sc. }
  apply Forall_forall. intros c I. unfold sentence in I. destruct (filter non_empty (split_words f)) as [|w ws]; [destruct I|]. apply join_In in I as [[<-|[]] | (v & [<-|Iv] & Ic)]; [auto| |].
  - destruct w as [|d w]; [destruct Ic|]. cbn [capital] in Ic. destruct Ic as [<-|Ic]; [rewrite upper_alpha, upper_digit; destruct (G (d :: w) d); cbn; auto|].
    apply in_map_iff in Ic as (e & <- & Ie). rewrite lower_alpha, lower_digit. destruct (G (d :: w) e); cbn; auto.
  - apply in_map_iff in Iv as (u & <- & Iu). apply in_map_iff in Ic as (e & <- & Ie). rewrite lower_alpha, lower_digit. destruct (G u e); cbn; auto.
Qed.
Lemma label_plain f : field_name f -> ~ In ":"%char (sentence f) /\ exists c r, sentence f = c :: r /\ c <> LF.
Proof.
  intros (NE & N & F). pose proof (label_chars f F) as C. rewrite Forall_forall in C. split; [intros I; destruct (C _ I) as [H|[H|H]]; discriminate H|].
  destruct (sentence f) as [|c r] eqn:E.
  - pose proof (label_name f) as X. rewrite E, N in X. cbn in X. congruence.
  - exists c, r. split; [reflexivity|]. intros ->. destruct (C LF (or_introl eq_refl)) as [H|[H|H]]; discriminate H.
Qed.
Lemma label_apart f g : field_name f -> field_name g -> sentence f = sentence g -> f = g.
Proof. intros (_ & F & _) (_ & G & _) E. rewrite <- F, <- G, <- (label_name f), <- (label_name g), E. reflexivity. Qed.
(** What follows the last line of an entity. *)
Definition next_text (s : str) : Prop := s = [] \/ exists r, s = LF :: r.
Lemma rows_apart x fs gs a b : Forall (fun fv => field_name (fst fv) /\ one_line (show_value x (snd fv))) fs ->
  Forall (fun fv => field_name (fst fv) /\ one_line (show_value x (snd fv))) gs -> next_text a -> next_text b ->
  concat (map (show_row x) fs) ++ a = concat (map (show_row x) gs) ++ b ->
  map fst fs = map fst gs /\ map (fun fv => show_value x (snd fv)) fs = map (fun fv => show_value x (snd fv)) gs /\ a = b.
Proof.
  intros F. revert gs. assert (H0 : forall fv r s, field_name (fst fv) -> next_text s -> show_row x fv ++ r <> s).
  { intros [f0 v0] r s N NT E. cbn [fst] in N. destruct (label_plain f0 N) as (_ & c & q & Q & NL). unfold show_row in E. cbn [fst snd] in E. rewrite Q in E. cbn [app] in E. destruct NT as [-> | (r' & ->)]; [discriminate E|]. injection E as E _. congruence. }
  induction F as [|[f v] fs [N O] F IH]; intros gs G A B E; destruct gs as [|[g w] gs]; cbn [map concat app] in E.
  - auto.
  - pose proof (Forall_inv G) as [N' _]. rewrite <- app_assoc in E. symmetry in E. destruct (H0 _ _ _ N' A E).
  - rewrite <- app_assoc in E. destruct (H0 _ _ _ N B E).
  - inversion G as [|? ? [N' O'] G']; subst. cbn [fst snd] in *. unfold show_row in E. cbn [fst snd list_ascii_of_string] in E. rewrite <- !app_assoc in E. cbn [app] in E.
    apply cut_two in E as [E1 E]; [|apply (label_plain f N)|apply (label_plain g N')]. apply cut_at in E as [E2 E]; auto. apply label_apart in E1; auto. subst g.
    destruct (IH gs G' A B E) as (E3 & E4 & E5). cbn [map fst snd]. rewrite E2, E3, E4. auto.
Qed.
Lemma entity_apart x e e' a b : legible x e -> legible x e' -> next_text a -> next_text b -> show_entity x e ++ a = show_entity x e' ++ b ->
  e_id e = e_id e' /\ map fst (e_fields e) = map fst (e_fields e') /\ map (fun fv => show_value x (snd fv)) (e_fields e) = map (fun fv => show_value x (snd fv)) (e_fields e') /\ a = b.
Proof.
  intros [O F] [O' F'] A B E. unfold show_entity in E. rewrite <- !app_assoc in E. cbn [app] in E. apply cut_two in E as [-> E]; auto. split; [reflexivity|]. apply (rows_apart x); auto.
Qed.
Lemma answers_apart x es es' : es <> [] -> es' <> [] -> Forall (legible x) es -> Forall (legible x) es' ->
  join ([LF] ++ L "---" ++ [LF]) (map (show_entity x) es) = join ([LF] ++ L "---" ++ [LF]) (map (show_entity x) es') -> Forall2 (shown_same x) es es'.
Proof.
  intros N N' F. revert es' N'. induction F as [|e es Le F IH]; [congruence|]. intros [|e' es'] N' F' E; [congruence|]. pose proof (Forall_inv F') as Le'.
  assert (J : forall e es, exists a, join ([LF] ++ L "---" ++ [LF]) (map (show_entity x) (e :: es)) = show_entity x e ++ a /\ next_text a /\
    a = match es with [] => [] | _ => ([LF] ++ L "---" ++ [LF]) ++ join ([LF] ++ L "---" ++ [LF]) (map (show_entity x) es) end).
  { intros u us. destruct us as [|u2 us]; cbn [map]; [exists []; rewrite app_nil_r; repeat split; left; reflexivity|]. rewrite join_cons by discriminate. eexists. split; [reflexivity|]. split; [right; eexists; reflexivity|reflexivity]. }
  destruct (J e es) as (a & Ea & Na & Da), (J e' es') as (b & Eb & Nb & Db). rewrite Ea, Eb in E. destruct (entity_apart x e e' a b Le Le' Na Nb E) as (E1 & E2 & E3 & E4).
  constructor; [split; auto|]. rewrite Da, Db in E4. destruct es as [|e2 es], es' as [|e2' es']; try discriminate E4; [constructor|].
  apply app_inv_head in E4. apply IH; auto; [discriminate|discriminate|exact (Forall_inv_tail F')].
Qed.
Lemma list_apart x es es' : Forall (legible x) es -> Forall (legible x) es' -> list_pretty x es = list_pretty x es' -> Forall2 (shown_same x) es es'.
Proof.
  intros F. revert es'. unfold list_pretty. set (sh := fun e => [LF] ++ show_entity x e ++ [LF]).
  assert (J : forall e es, exists a, join (dashes ++ [LF]) (map sh (e :: es)) = LF :: show_entity x e ++ LF :: a /\ 
    a = match es with [] => [] | _ => (dashes ++ [LF]) ++ join (dashes ++ [LF]) (map sh es) end).
  { intros u us. destruct us as [|u2 us]; cbn [map]; [exists []; split; reflexivity|]. rewrite join_cons by discriminate. eexists. split; [|reflexivity]. unfold sh at 1. cbn [app]. rewrite <- app_assoc. reflexivity. }
  induction F as [|e es Le F IH]; intros [|e' es'] F' E; [constructor| | |].
  - destruct (J e' es') as (b & Eb & _). rewrite Eb in E. discriminate E.
  - destruct (J e es) as (b & Eb & _). rewrite Eb in E. discriminate E.
  - destruct (J e es) as (a & Ea & Da), (J e' es') as (b & Eb & Db). rewrite Ea, Eb in E. apply (f_equal (@tl _)) in E. cbn [tl] in E. pose proof (Forall_inv F') as Le'.
    destruct (entity_apart x e e' (LF :: a) (LF :: b) Le Le' ltac:(right; eauto) ltac:(right; eauto) E) as (E1 & E2 & E3 & E4). injection E4 as E4.
    constructor; [split; auto|]. rewrite Da, Db in E4. destruct es as [|e2 es], es' as [|e2' es']; try discriminate E4; [constructor|].
    apply app_inv_head in E4. apply IH; auto. exact (Forall_inv_tail F').
Qed.
Lemma same_fields x e e' : faithful x -> shown_same x e e' -> Forall (fun fv => clear x (snd fv)) (e_fields e) -> Forall (fun fv => clear x (snd fv)) (e_fields e') ->
  Forall2 (fun a b => same_kind (snd a) (snd b)) (e_fields e) (e_fields e') -> e_fields e = e_fields e'.
Proof.
  intros X (_ & E1 & E2) C C' K. induction K as [|[f v] [g w] fs gs H K IH]; [reflexivity|]. cbn [map fst snd] in *. injection E1 as <- E1. injection E2 as E2 E3.
  inversion C; inversion C'; subst. cbn [snd] in *. f_equal; [|apply IH; auto]. f_equal. apply (value_apart x); auto.
Qed.

(** ** Schemas *)
Definition legible_field (p : field_id * fschema) : Prop :=
  one_line (fst p) /\ forall vs, fs_allowed (snd p) = Some vs -> Forall (fun v => v <> [] /\ one_line v /\ ~ In ","%char v) vs.
Lemma type_line t : one_line (ftype_name t).
Proof. destruct t; intros H; repeat (destruct H as [H|H]; [discriminate H|]); destruct H. Qed.
Lemma bool_line b : one_line (bool_text b).
Proof. destruct b; intros H; repeat (destruct H as [H|H]; [discriminate H|]); destruct H. Qed.
Lemma types_apart t u : ftype_name t = ftype_name u -> t = u.
Proof. intros E. pose proof (f_equal JvStr E) as J. apply (f_equal dec_type) in J. destruct t, u; (reflexivity || discriminate E). Qed.
Lemma allowed_line vs : Forall (fun v => v <> [] /\ one_line v /\ ~ In ","%char v) vs -> one_line (join (L ", ") vs).
Proof. intros F. apply join_without; [intros [H|[H|[]]]; discriminate H|]. eapply Forall_impl; [|exact F]. intros v (_ & A & _). exact A. Qed.
Lemma field_apart p q a b : legible_field p -> legible_field q -> next_text a -> next_text b -> show_fschema p ++ a = show_fschema q ++ b -> shown_field p = shown_field q /\ a = b.
Proof.
  destruct p as [n [t r o al]], q as [n' [t' r' o' al']]. intros [O V] [O' V'] A B E. unfold show_fschema in E. cbn [fst snd fs_type fs_required fs_allowed] in *. rewrite <- !app_assoc in E.
  apply app_inv_head in E. change ([LF] ++ ?y) with (LF :: y) in E. apply cut_at in E as [-> E]; auto. apply app_inv_head in E. apply cut_at in E as [E1 E]; try apply type_line. apply types_apart in E1. subst t'.
  apply app_inv_head in E. apply cut_at in E as [E2 E]; try apply bool_line. assert (r = r') by (destruct r, r'; (reflexivity || discriminate E2)). subst r'.
  unfold shown_field. cbn [fst snd fs_type fs_required fs_allowed].
  destruct al as [vs|], al' as [vs'|].
  - rewrite <- !app_assoc in E. apply app_inv_head in E. cbn [app] in E. apply cut_at in E as [E3 E4]; [|apply allowed_line; auto|apply allowed_line; auto].
    apply join_apart_full in E3; [subst; auto| |]; (eapply Forall_impl; [|first [exact (V vs eq_refl)|exact (V' vs' eq_refl)]]); intros v (X & _ & Y); auto.
  - destruct B as [-> | (s & ->)]; discriminate E.
  - destruct A as [-> | (s & ->)]; discriminate E.
  - auto.
Qed.
Lemma fields_apart ps qs : Forall legible_field ps -> Forall legible_field qs -> concat (map show_fschema ps) = concat (map show_fschema qs) -> map shown_field ps = map shown_field qs.
Proof.
  assert (NT : forall ps, next_text (concat (map show_fschema ps))) by (intros [|u us]; [left; reflexivity|right; eexists; reflexivity]).
  intros F. revert qs. induction F as [|p ps Lp F IH]; intros [|q qs] G E; cbn [map concat] in *; [reflexivity|discriminate E|discriminate E|].
  destruct (field_apart p q _ _ Lp (Forall_inv G) (NT ps) (NT qs) E) as [-> E']. f_equal. apply IH; [exact (Forall_inv_tail G)|exact E'].
Qed.

(** ** Tables *)
Lemma cells_apart x row row' : Forall (clear_cell x) row -> Forall (clear_cell x) row' -> map (show_cell x) row = map (show_cell x) row' -> map (shown_cell x) row = map (shown_cell x) row'.
Proof.
  intros F. revert row'. induction F as [|c row C F IH]; intros [|c' row'] G E; try discriminate E; [reflexivity|]. cbn [map] in *. injection E as E1 E2. pose proof (Forall_inv G) as C'.
  f_equal; [|apply IH; [exact (Forall_inv_tail G)|exact E2]]. destruct c as [v|], c' as [v'|]; cbn [show_cell shown_cell option_map] in *.
  - f_equal. exact E1.
  - destruct (C v eq_refl) as (N & _). congruence.
  - destruct (C' v' eq_refl) as (N & _). congruence.
  - reflexivity.
Qed.
Lemma cell_line x c : clear_cell x c -> one_line (show_cell x c) /\ ~ In TAB (show_cell x c).
Proof. intros C. destruct c as [v|]; cbn [show_cell]; [destruct (C v eq_refl) as (_ & A & B); auto|]. split; intros [H|[]]; discriminate H. Qed.
Lemma rows_of_table_apart x rows rows' : Forall (fun row => row <> [] /\ Forall (clear_cell x) row) rows -> Forall (fun row => row <> [] /\ Forall (clear_cell x) row) rows' ->
  concat (map (fun row => join [TAB] (map (show_cell x) row) ++ [LF]) rows) = concat (map (fun row => join [TAB] (map (show_cell x) row) ++ [LF]) rows') ->
  map (map (shown_cell x)) rows = map (map (shown_cell x)) rows'.
Proof.
  assert (ON : forall row, Forall (clear_cell x) row -> one_line (join [TAB] (map (show_cell x) row))).
  { intros row F. apply join_without; [intros [H|[]]; discriminate H|]. apply Forall_forall. intros t I. apply in_map_iff in I as (c & <- & I). rewrite Forall_forall in F. apply (cell_line x c (F c I)). }
  intros F. revert rows'. induction F as [|row rows [N C] F IH]; intros [|row' rows'] G E; cbn [map concat] in *; [reflexivity| | |].
  - destruct (join [TAB] (map (show_cell x) row')); discriminate E.
  - destruct (join [TAB] (map (show_cell x) row)); discriminate E.
  - destruct (Forall_inv G) as [N' C']. rewrite <- !app_assoc in E. cbn [app] in E. apply cut_at in E as [E1 E2]; [|apply ON, C|apply ON, C'].
    f_equal; [|apply IH; [exact (Forall_inv_tail G)|exact E2]]. apply cells_apart; auto. apply (join_apart TAB []) in E1; auto.
    + destruct row; [congruence|discriminate].
    + destruct row'; [congruence|discriminate].
    + apply Forall_forall. intros t I. apply in_map_iff in I as (c & <- & I). rewrite Forall_forall in C. apply (cell_line x c (C c I)).
    + apply Forall_forall. intros t I. apply in_map_iff in I as (c & <- & I). rewrite Forall_forall in C'. apply (cell_line x c (C' c I)).
Qed.
