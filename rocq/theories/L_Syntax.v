(** The parser of M_Syntax reads every text of the documented syntax. *)
From Verif Require Import M_Graph L_Str L_Num L_Json.
From Verif Require Export M_Syntax S_Syntax.
From Coq Require Import Lia.
Close Scope Z_scope.

(** ** Characters *)
Definition begins (p : ascii -> bool) (s : str) : Prop := match s with c :: _ => p c = true | [] => False end.
Definition not_begins (p : ascii -> bool) (s : str) : Prop := match s with c :: _ => p c = false | [] => True end.
Lemma take_run_all p s r : forallb p s = true -> not_begins p r -> take_run p (s ++ r) = (s, r).
Proof.
  intros H N. induction s as [|c s IH]; cbn [app].
  - destruct r as [|c r]; [reflexivity|]. cbn in N |- *. now rewrite N.
  - cbn [forallb] in H. apply andb_prop in H. destruct H as [H1 H2]. cbn [take_run]. rewrite H1, (IH H2). reflexivity.
Qed.
Lemma word_app w r : word w (w ++ r) = Some r.
Proof. induction w as [|c w IH]; cbn; [reflexivity|]. now rewrite Ascii.eqb_refl. Qed.
Lemma word_spec w s r : word w s = Some r -> s = w ++ r.
Proof.
  revert s. induction w as [|c w IH]; cbn; intros s H; [now injection H as ->|].
  destruct s as [|d s]; [discriminate|]. destruct (Ascii.eqb_spec c d) as [->|]; [|discriminate]. now rewrite (IH _ H).
Qed.
Lemma blank_is_ws c : blank_char c -> is_ws c = true.
Proof. unfold blank_char. cbn. intros H. repeat (destruct H as [<-|H]; [reflexivity|]). destruct H. Qed.

(** ** Gaps *)
(** Where a gap cannot go on. *)
Definition solid (c : ascii) : bool := negb (is_ws c) && negb (Ascii.eqb c "/").
Definition stops (s : str) : Prop := match s with c :: _ => solid c = true | [] => True end.
Lemma drop_line_app body r : ~ In LF body -> drop_line (body ++ LF :: r) = LF :: r.
Proof.
  intros H. induction body as [|c b IH]; cbn [app drop_line].
  - now rewrite Ascii.eqb_refl.
  - destruct (Ascii.eqb_spec c LF) as [E|]; [exfalso; apply H; left; assumption|]. apply IH. intros X; apply H; now right.
Qed.
Lemma drop_line_end body : ~ In LF body -> drop_line body = [].
Proof.
  intros H. induction body as [|c b IH]; cbn [app drop_line]; [reflexivity|].
  destruct (Ascii.eqb_spec c LF) as [E|]; [exfalso; apply H; left; assumption|]. apply IH. intros X; apply H; now right.
Qed.
Lemma up_to_tail stop c body : up_to stop (c :: body) -> up_to stop body.
Proof. intros H a b E. apply (H (c :: a) b). cbn. now rewrite E. Qed.
Lemma drop_comment_app body r : up_to (L "*/") body -> drop_comment (body ++ L "*/" ++ r) = Some r.
Proof.
  intros H. induction body as [|c b IH].
  - reflexivity.
  - cbn [app drop_comment]. pose proof (up_to_tail _ _ _ H) as H'.
    destruct (b ++ L "*/" ++ r) as [|d s2] eqn:E; [destruct b; discriminate|].
    destruct (Ascii.eqb_spec c "*") as [->|]; cbn [andb]; [|exact (IH H')].
    destruct (Ascii.eqb_spec d "/") as [->|]; [|exact (IH H')].
    exfalso. destruct b as [|x b]; cbn in E; [discriminate|]. injection E as -> E.
    specialize (H [] (b ++ L "*/") eq_refl). destruct b; discriminate.
Qed.
Lemma skip_gap_stops n s : stops s -> skip_gap n s = s.
Proof.
  intros H. destruct n as [|n]; [reflexivity|]. cbn [skip_gap]. destruct s as [|c s]; [reflexivity|].
  cbn in H. unfold solid in H. apply andb_prop in H. destruct H as [H1 H2]. apply negb_true_iff in H1, H2. now rewrite H1, H2.
Qed.
Lemma skip_gap_app g r n : gap g -> stops r -> length g < n -> skip_gap n (g ++ r) = r.
Proof.
  intros G. revert n. induction G as [|c g B G IH|body g B G IH|body g B G IH]; intros n St Ln.
  - apply skip_gap_stops, St.
  - destruct n as [|n]; [lia|]. cbn [skip_gap app]. rewrite (blank_is_ws _ B). apply IH; [exact St|cbn in Ln; lia].
  - destruct n as [|[|n]]; [lia|cbn in Ln; lia|]. rewrite !app_length in Ln. cbn [length] in Ln.
    change ((L "//" ++ body ++ [LF] ++ g) ++ r) with ("/"%char :: "/"%char :: ((body ++ LF :: g) ++ r)).
    cbn [skip_gap]. change (is_ws "/") with false. rewrite Ascii.eqb_refl. rewrite <- app_assoc. cbn [app]. rewrite (drop_line_app _ _ B).
    change (is_ws LF) with true. cbn iota. apply IH; [exact St|]. change (length (L "//")) with 2 in Ln. lia.
  - destruct n as [|n]; [lia|]. rewrite !app_length in Ln. change (length (L "/*")) with 2 in Ln. change (length (L "*/")) with 2 in Ln.
    replace ((L "/*" ++ body ++ L "*/" ++ g) ++ r) with ("/"%char :: "*"%char :: (body ++ L "*/" ++ (g ++ r))).
    2:{ cbn [app]. change (L "/*") with ["/"%char; "*"%char]. cbn [app]. do 2 f_equal. rewrite !app_assoc. reflexivity. }
    cbn [skip_gap]. change (is_ws "/") with false. rewrite Ascii.eqb_refl. change (Ascii.eqb "*" "/") with false. rewrite Ascii.eqb_refl.
    cbn iota. rewrite (drop_comment_app _ _ B). apply IH; [exact St|lia].
Qed.
Lemma skip_app g r : gap g -> stops r -> skip (g ++ r) = r.
Proof. intros G St. apply skip_gap_app; [exact G|exact St|]. rewrite app_length. lia. Qed.
Lemma skip_stops r : stops r -> skip r = r.
Proof. intros St. apply skip_gap_stops, St. Qed.
Lemma skip_last g : last_gap g -> skip g = [].
Proof.
  intros [G|(g0 & body & G & B & ->)].
  - rewrite <- (app_nil_r g). apply skip_app; [exact G|exact Logic.I].
  - unfold skip. assert (X : forall n, gap g0 -> length g0 < n -> skip_gap n (g0 ++ L "//" ++ body) = []).
    2:{ apply X; [exact G|]. rewrite app_length. lia. }
    clear -B. intros n G. revert n. induction G as [|c g Bc G IH|b g Bb G IH|b g Bb G IH]; intros n Ln.
    + destruct n as [|n]; [lia|]. change ([] ++ L "//" ++ body) with ("/"%char :: "/"%char :: body). cbn [skip_gap].
      change (is_ws "/") with false. rewrite Ascii.eqb_refl. cbn iota. rewrite (drop_line_end _ B). destruct n; reflexivity.
    + destruct n as [|n]; [lia|]. cbn [skip_gap app]. rewrite (blank_is_ws _ Bc). apply IH. cbn in Ln; lia.
    + destruct n as [|[|n]]; [lia|cbn in Ln; lia|]. rewrite !app_length in Ln. cbn [length] in Ln.
      change ((L "//" ++ b ++ [LF] ++ g) ++ L "//" ++ body) with ("/"%char :: "/"%char :: ((b ++ LF :: g) ++ L "//" ++ body)).
      cbn [skip_gap]. change (is_ws "/") with false. rewrite Ascii.eqb_refl. rewrite <- app_assoc. cbn [app]. rewrite (drop_line_app _ _ Bb).
      change (is_ws LF) with true. cbn iota. apply IH. change (length (L "//")) with 2 in Ln. lia.
    + destruct n as [|n]; [lia|]. rewrite !app_length in Ln. change (length (L "/*")) with 2 in Ln. change (length (L "*/")) with 2 in Ln.
      replace ((L "/*" ++ b ++ L "*/" ++ g) ++ L "//" ++ body) with ("/"%char :: "*"%char :: (b ++ L "*/" ++ (g ++ L "//" ++ body))).
      2:{ change (L "/*") with ["/"%char; "*"%char]. cbn [app]. do 2 f_equal. rewrite !app_assoc. reflexivity. }
      cbn [skip_gap]. change (is_ws "/") with false. rewrite Ascii.eqb_refl. change (Ascii.eqb "*" "/") with false. rewrite Ascii.eqb_refl.
      cbn iota. rewrite (drop_comment_app _ _ Bb). apply IH. lia.
Qed.
Lemma gap_app a b : gap a -> gap b -> gap (a ++ b).
Proof.
  intros A B. induction A as [|c g Bc G IH|body g Bb G IH|body g Bb G IH]; [exact B| | |].
  - cbn. now apply gap_blank.
  - replace ((L "//" ++ body ++ [LF] ++ g) ++ b) with (L "//" ++ body ++ [LF] ++ (g ++ b)) by (rewrite !app_assoc; reflexivity). now apply gap_line.
  - replace ((L "/*" ++ body ++ L "*/" ++ g) ++ b) with (L "/*" ++ body ++ L "*/" ++ (g ++ b)) by (rewrite !app_assoc; reflexivity). now apply gap_block.
Qed.
(** A gap starts with a character no word has. *)
Lemma gap_start g : gap g -> g = [] \/ exists c r, g = c :: r /\ (is_ws c = true \/ c = "/"%char).
Proof.
  intros [|c r B _|body r _ _|body r _ _]; [now left| | |]; right.
  - exists c, r. split; [reflexivity|]. left. now apply blank_is_ws.
  - exists "/"%char, ("/"%char :: body ++ [LF] ++ r). now split; [|right].
  - exists "/"%char, ("*"%char :: body ++ L "*/" ++ r). now split; [|right].
Qed.

(** ** What follows a value *)
Definition is_quote (c : ascii) : bool := Ascii.eqb c DQ.
Definition after (s : str) : Prop :=
  not_begins dark s /\ not_begins is_quote s /\ forall r, s = " "%char :: r -> not_begins dark r.
Lemma ws_not_dark c : is_ws c = true \/ c = "/"%char -> dark c = false /\ is_quote c = false.
Proof.
  intros [H| ->]; [|now split]. unfold is_ws in H.
  assert (E : c = ascii_of_N (code c)) by (symmetry; apply ascii_N_embedding).
  repeat (apply orb_prop in H; destruct H as [H|H]); apply N.eqb_eq in H; rewrite H in E; rewrite E; now split.
Qed.
Lemma after_gap g t : gap g -> stops t -> In LF g \/ (not_begins dark t /\ not_begins is_quote t) -> after (g ++ t).
Proof.
  intros G St H. destruct (gap_start g G) as [->|(c & r & -> & C)].
  - destruct H as [[]|[H1 H2]]. cbn [app]. repeat split; try assumption. intros r ->. discriminate St.
  - destruct (ws_not_dark c C) as [C1 C2]. repeat split; [exact C1|exact C2|].
    intros r' E. cbn [app] in E. injection E as -> <-.
    assert (G' : gap r) by (inversion G; assumption). destruct (gap_start r G') as [->|(c & r1 & -> & C')].
    + destruct H as [[H|[]]|[H1 H2]]; [discriminate H|exact H1].
    + exact (proj1 (ws_not_dark c C')).
Qed.

(** ** Words *)
Lemma digit_dark c : is_digit c = true -> dark c = true.
Proof. intros H. unfold dark, name_char. rewrite H, orb_true_r. reflexivity. Qed.
Lemma alpha_dark c : is_alpha c = true -> dark c = true.
Proof. intros H. unfold dark, name_char. rewrite H. reflexivity. Qed.
Lemma name_dark c : name_char c = true -> dark c = true.
Proof. intros H. unfold dark. rewrite H. reflexivity. Qed.
Lemma forallb_weaken (p q : ascii -> bool) s : (forall c, p c = true -> q c = true) -> forallb p s = true -> forallb q s = true.
Proof. intros W. induction s as [|c s IH]; cbn; [reflexivity|]. intros H. apply andb_prop in H. destruct H as [H1 H2]. now rewrite (W _ H1), (IH H2). Qed.
Lemma name_is s : name_syntax s -> is_name s = true /\ forallb name_char s = true.
Proof.
  intros (c & r & -> & C & R). cbn [is_name forallb].
  assert (S : name_start c = true). { unfold name_start. destruct C as [C| ->]; [now rewrite C|reflexivity]. }
  assert (S' : name_char c = true). { unfold name_start in S. unfold name_char. destruct (is_alpha c); [reflexivity|]. cbn in S |- *. now rewrite S, orb_true_r. }
  assert (R' : forallb name_char r = true).
  { apply forallb_forall. intros x X. rewrite Forall_forall in R. unfold name_char. destruct (R _ X) as [H|[H| ->]]; [now rewrite H|rewrite H; now rewrite orb_true_r|apply orb_true_r]. }
  now rewrite S, S', R'.
Qed.
Lemma name_no_dot s : name_syntax s -> ~ In "."%char s.
Proof. intros N. apply name_is in N. destruct N as [_ N]. intros H. rewrite forallb_forall in N. specialize (N _ H). discriminate N. Qed.
Lemma digits_forallb n s : digits_syntax n s -> forallb is_digit s = true.
Proof. intros [_ H]. apply forallb_forall. rewrite Forall_forall in H. exact H. Qed.
Lemma digits_all n s : 0 < n -> digits_syntax n s -> all_digits s = true.
Proof.
  intros P D. pose proof (digits_forallb _ _ D) as F. destruct D as [E _]. unfold all_digits. rewrite F.
  destruct s; [cbn in E; lia|reflexivity].
Qed.
Lemma digit_not (c : ascii) d : is_digit c = true -> is_digit d = false -> Ascii.eqb c d = false.
Proof. intros H1 H2. destruct (Ascii.eqb_spec c d) as [->|]; [congruence|reflexivity]. Qed.
Lemma no_dot_digits s : forallb is_digit s = true -> ~ In "."%char s.
Proof. intros H I. rewrite forallb_forall in H. specialize (H _ I). discriminate H. Qed.
Lemma number_is s : number_syntax s -> is_number s = true.
Proof.
  intros (sign & ints & rest & -> & Sg & (n & P & D) & R).
  assert (U : is_number (ints ++ rest) = true /\ is_number ("-"%char :: ints ++ rest) = true).
  { pose proof (digits_forallb _ _ D) as F. destruct ints as [|c ints]; [destruct D as [E _]; cbn in E; lia|].
    assert (C : is_digit c = true) by (cbn in F; now apply andb_prop in F).
    assert (X : match split_once "." ((c :: ints) ++ rest) with Some (a, b) => all_digits a && all_digits b | None => all_digits ((c :: ints) ++ rest) end = true).
    { destruct R as [->|(frac & m & -> & Pm & Dm)].
      - rewrite app_nil_r, (proj2 (split_once_none _ _) (no_dot_digits _ F)). exact (digits_all _ _ P D).
      - change (L "." ++ frac) with ("."%char :: frac). rewrite (split_once_app _ _ _ (no_dot_digits _ F)), (digits_all _ _ P D), (digits_all _ _ Pm Dm). reflexivity. }
    unfold is_number. change (Ascii.eqb "-" "-") with true. cbn iota. split; [|exact X].
    cbn [app]. rewrite (digit_not c "-" C eq_refl). exact X. }
  destruct Sg as [->| ->]; [exact (proj1 U)|exact (proj2 U)].
Qed.
Lemma number_dark s : number_syntax s -> forallb dark s = true.
Proof.
  intros (sign & ints & rest & -> & Sg & (n & P & D) & R). rewrite !forallb_app.
  rewrite (forallb_weaken _ _ _ digit_dark (digits_forallb _ _ D)).
  replace (forallb dark sign) with true by (destruct Sg as [->| ->]; reflexivity).
  destruct R as [->|(frac & m & -> & Pm & Dm)]; [reflexivity|]. change (L "." ++ frac) with ("."%char :: frac). cbn [forallb].
  now rewrite (forallb_weaken _ _ _ digit_dark (digits_forallb _ _ Dm)).
Qed.
Lemma number_start s : number_syntax s -> exists c r, s = c :: r /\ (is_digit c = true \/ c = "-"%char).
Proof.
  intros (sign & ints & rest & -> & Sg & (n & P & D) & R). destruct Sg as [->| ->].
  - destruct ints as [|c ints]; [destruct D as [E _]; cbn in E; lia|]. exists c, (ints ++ rest). split; [reflexivity|]. left.
    apply digits_forallb in D. cbn in D. now apply andb_prop in D.
  - exists "-"%char, (ints ++ rest). now split; [|right].
Qed.
Lemma digits_list n s : digits_syntax n s -> exists l, s = l /\ length l = n /\ forallb is_digit l = true.
Proof. intros D. exists s. split; [reflexivity|]. split; [exact (proj1 D)|exact (digits_forallb _ _ D)]. Qed.
Ltac spread l := repeat (let c := fresh "c" in destruct l as [|c l]; [try discriminate|]).
Lemma date_shape s : date_syntax s -> exists y1 y2 y3 y4 m1 m2 a1 a2,
  s = [y1; y2; y3; y4; "-"%char; m1; m2; "-"%char; a1; a2] /\ forallb is_digit [y1; y2; y3; y4; m1; m2; a1; a2] = true.
Proof.
  intros (y & m & d & -> & Y & M & D).
  pose proof (digits_forallb _ _ Y) as Fy. pose proof (digits_forallb _ _ M) as Fm. pose proof (digits_forallb _ _ D) as Fd.
  destruct Y as [Y _], M as [M _], D as [D _].
  destruct y as [|y1 [|y2 [|y3 [|y4 [|? ?]]]]]; try discriminate Y.
  destruct m as [|m1 [|m2 [|? ?]]]; try discriminate M. destruct d as [|d1 [|d2 [|? ?]]]; try discriminate D.
  exists y1, y2, y3, y4, m1, m2, d1, d2. split; [reflexivity|].
  cbn [forallb] in *. repeat (match goal with H : _ && _ = true |- _ => apply andb_prop in H; destruct H end).
  repeat (apply andb_true_intro; split; [assumption|]). reflexivity.
Qed.
Lemma date_is s : date_syntax s -> is_date s = true.
Proof. intros D. destruct (date_shape s D) as (y1 & y2 & y3 & y4 & m1 & m2 & a1 & a2 & -> & F). unfold is_date. now rewrite F. Qed.
Lemma date_dark s : date_syntax s -> forallb dark s = true.
Proof.
  intros D. destruct (date_shape s D) as (y1 & y2 & y3 & y4 & m1 & m2 & a1 & a2 & -> & F). cbn [forallb] in F |- *.
  repeat (match goal with H : _ && _ = true |- _ => apply andb_prop in H; destruct H end).
  change (dark "-") with true.
  repeat (apply andb_true_intro; split; [first [now apply digit_dark|reflexivity]|]). reflexivity.
Qed.
Lemma date_not_number s : date_syntax s -> is_number s = false.
Proof.
  intros D. destruct (date_shape s D) as (y1 & y2 & y3 & y4 & m1 & m2 & a1 & a2 & -> & F). cbn [forallb] in F.
  repeat (match goal with H : _ && _ = true |- _ => apply andb_prop in H; destruct H end).
  unfold is_number. rewrite (digit_not y1 "-") by (assumption || reflexivity).
  replace (split_once "." [y1; y2; y3; y4; "-"%char; m1; m2; "-"%char; a1; a2]) with (@None (str * str)).
  - unfold all_digits. cbn [forallb]. change (is_digit "-") with false. cbn [andb]. now rewrite !andb_false_r.
  - symmetry. apply split_once_none. cbn. intros I. repeat (destruct I as [I|I]; [subst; discriminate|]). exact I.
Qed.
Lemma time_is s : time_syntax s -> is_time s = true /\ forallb dark s = true.
Proof.
  intros (h & m & -> & H & M). pose proof (digits_forallb _ _ M) as Fm. destruct M as [M _].
  destruct m as [|m1 [|m2 [|? ?]]]; try discriminate M. cbn [forallb] in Fm.
  destruct H as [H|H]; pose proof (digits_forallb _ _ H) as Fh; destruct H as [H _].
  - destruct h as [|h1 [|? ?]]; try discriminate H. cbn [forallb] in Fh.
    repeat (match goal with H : _ && _ = true |- _ => apply andb_prop in H; destruct H end).
    change ([h1] ++ L ":" ++ [m1; m2]) with [h1; ":"%char; m1; m2]. unfold is_time. cbn [forallb].
    repeat match goal with H : is_digit _ = true |- _ => rewrite (digit_dark _ H), H; clear H end. split; reflexivity.
  - destruct h as [|h1 [|h2 [|? ?]]]; try discriminate H. cbn [forallb] in Fh.
    repeat (match goal with H : _ && _ = true |- _ => apply andb_prop in H; destruct H end).
    change ([h1; h2] ++ L ":" ++ [m1; m2]) with [h1; h2; ":"%char; m1; m2]. unfold is_time. cbn [forallb].
    repeat match goal with H : is_digit _ = true |- _ => rewrite (digit_dark _ H), H; clear H end. split; reflexivity.
Qed.
Lemma zone_is s : zone_syntax s -> is_zone s = true /\ forallb dark s = true.
Proof.
  intros [->|(sign & z & n & -> & Sg & P & D)]; [split; reflexivity|]. unfold is_zone. rewrite word_app.
  pose proof (digits_all _ _ P D) as A. pose proof (forallb_weaken _ _ _ digit_dark (digits_forallb _ _ D)) as K.
  destruct Sg as [->| ->].
  - change (L "+" ++ z) with ("+"%char :: z). change (L "UTC" ++ "+"%char :: z) with ("U"%char :: "T"%char :: "C"%char :: "+"%char :: z). cbn [forallb]. now rewrite A, K.
  - change (L "-" ++ z) with ("-"%char :: z). change (L "UTC" ++ "-"%char :: z) with ("U"%char :: "T"%char :: "C"%char :: "-"%char :: z). cbn [forallb]. now rewrite A, K.
Qed.
Lemma code_is s : code_syntax s -> is_code s = true /\ forallb dark s = true.
Proof.
  intros [E F]. unfold is_code. rewrite E. assert (U : forallb is_upper s = true) by (apply forallb_forall; rewrite Forall_forall in F; exact F).
  rewrite U. split; [reflexivity|]. apply (forallb_weaken is_upper); [|exact U]. intros c H. apply alpha_dark. unfold is_alpha. now rewrite H.
Qed.
Lemma name_start_not c r : name_syntax (c :: r) -> is_digit c = false /\ c <> "-"%char.
Proof.
  intros (x & y & E & C & _). injection E as -> ->. destruct C as [C| ->]; [|split; [reflexivity|discriminate]].
  split; [|intros ->; discriminate]. unfold is_alpha, is_upper, is_lower in C. unfold is_digit.
  destruct (N.leb_spec 48 (code x)), (N.leb_spec (code x) 57); try reflexivity. exfalso.
  apply orb_prop in C. destruct C as [C|C]; apply andb_prop in C; destruct C as [C1 C2]; apply N.leb_le in C1, C2; lia.
Qed.
(** A text that starts with a name. *)
Lemma named_not t x : name_syntax t -> is_number (t ++ x) = false /\ is_date (t ++ x) = false.
Proof.
  intros N. destruct t as [|c r]; [destruct N as (? & ? & E & _); discriminate|]. destruct (name_start_not c r N) as [D M].
  split.
  - unfold is_number. cbn [app]. destruct (Ascii.eqb_spec c "-") as [E|_]; [now elim M|].
    destruct (split_once "." (c :: r ++ x)) as [[a b]|] eqn:Sp.
    + apply split_once_spec in Sp. destruct Sp as [Sp _]. destruct a as [|c' a]; [reflexivity|]. cbn in Sp. injection Sp as -> _.
      unfold all_digits. cbn [forallb]. now rewrite D, andb_false_r.
    + unfold all_digits. cbn [forallb]. now rewrite D, andb_false_r.
  - unfold is_date. cbn [app]. destruct (r ++ x) as [|? [|? [|? [|? [|? [|? [|? [|? [|? [|? ?]]]]]]]]]]; try reflexivity.
    cbn [forallb]. now rewrite D.
Qed.
Lemma entity_is t i : name_syntax t -> name_syntax i -> is_reference (t ++ L "." ++ i) = true.
Proof.
  intros T I. unfold is_reference. change (L "." ++ i) with ("."%char :: i). rewrite (split_once_app _ _ _ (name_no_dot _ T)).
  now rewrite (proj1 (name_is _ T)), (proj1 (name_is _ I)).
Qed.
Lemma field_is t i f : name_syntax t -> name_syntax i -> name_syntax f -> is_reference (t ++ L "." ++ i ++ L "." ++ f) = true.
Proof.
  intros T I F. unfold is_reference. change (L "." ++ i ++ L "." ++ f) with ("."%char :: i ++ "."%char :: f). rewrite (split_once_app _ _ _ (name_no_dot _ T)).
  rewrite (split_once_app _ _ _ (name_no_dot _ I)). now rewrite (proj1 (name_is _ T)), (proj1 (name_is _ I)), (proj1 (name_is _ F)), orb_true_r.
Qed.
Lemma not_bool c r : is_digit c = true \/ c = "-"%char -> str_eqb (c :: r) (L "true") || str_eqb (c :: r) (L "false") = false.
Proof.
  intros H. apply orb_false_intro; apply str_eqb_neq; intros E; injection E as -> _; destruct H as [H|H]; discriminate H.
Qed.
Lemma dotted_not_bool t x : str_eqb (t ++ "."%char :: x) (L "true") || str_eqb (t ++ "."%char :: x) (L "false") = false.
Proof.
  apply orb_false_intro; apply str_eqb_neq; intros E.
  - assert (I : In "."%char (L "true")) by (rewrite <- E; apply in_or_app; right; now left). cbn in I. repeat (destruct I as [I|I]; [discriminate|]). exact I.
  - assert (I : In "."%char (L "false")) by (rewrite <- E; apply in_or_app; right; now left). cbn in I. repeat (destruct I as [I|I]; [discriminate|]). exact I.
Qed.

(** ** Quotes *)
Lemma to_quote_app s r : one_line s -> to_quote (s ++ DQ :: r) = Some (s, r).
Proof.
  intros [Q N]. induction s as [|c s IH]; cbn [app to_quote].
  - now rewrite Ascii.eqb_refl.
  - destruct (Ascii.eqb_spec c DQ) as [E|_]; [exfalso; apply Q; now left|]. destruct (Ascii.eqb_spec c LF) as [E|_]; [exfalso; apply N; now left|].
    rewrite IH; [reflexivity| |]; intros X; [apply Q|apply N]; now right.
Qed.
Lemma to_quotes_app s r : up_to q3 s -> to_quotes (s ++ q3 ++ r) = Some (s, r).
Proof.
  intros H. induction s as [|c s IH].
  - cbn [app]. destruct (q3 ++ r) as [|x y] eqn:E; [discriminate|]. cbn [to_quotes]. rewrite <- E, word_app. reflexivity.
  - change ((c :: s) ++ q3 ++ r) with (c :: (s ++ q3 ++ r)). cbn [to_quotes].
    destruct (word q3 (c :: s ++ q3 ++ r)) as [x|] eqn:W.
    + exfalso. apply word_spec in W.
      (* the occurrence at the start lies within s ++ q3 *)
      destruct s as [|c2 [|c3 s]].
      * cbn in W. injection W as -> _. specialize (H [] [DQ] eq_refl). discriminate H.
      * cbn in W. injection W as -> -> _. specialize (H [] [DQ; DQ] eq_refl). discriminate H.
      * cbn in W. injection W as -> -> -> _. specialize (H [] (s ++ q3) eq_refl). destruct s; discriminate H.
    + rewrite (IH (up_to_tail _ _ _ H)). reflexivity.
Qed.

(** ** Literals *)
Lemma take_dark w r : forallb dark w = true -> not_begins dark r -> take_run dark (w ++ r) = (w, r).
Proof. apply take_run_all. Qed.
Lemma code_none r : not_begins dark r -> take_run dark r = ([], r).
Proof. intros H. exact (take_run_all dark [] r eq_refl H). Qed.
(** A run of its own, then a blank: what follows is no further part. *)
Lemma no_part (k : str -> bool) (r : str) {A} (x : str -> str -> A) (y : ascii -> str -> A) (z : A) : k [] = false -> after r ->
  match r with c :: r1 => let (w, r2) := take_run dark r1 in if Ascii.eqb c " " && k w then x w r2 else y c r1 | [] => z end
  = match r with c :: r1 => y c r1 | [] => z end.
Proof.
  intros K (_ & _ & B). destruct r as [|c r]; [reflexivity|]. destruct (take_run dark r) as [w r2] eqn:T.
  destruct (Ascii.eqb_spec c " ") as [->|]; [|reflexivity]. rewrite (code_none r (B r eq_refl)) in T. injection T as <- <-. now rewrite K.
Qed.
Lemma read_number_lit s r : number_syntax s -> after r -> read_dark (s ++ r) = lit KNumber s r.
Proof.
  intros N A. unfold read_dark. rewrite (take_dark _ _ (number_dark _ N) (proj1 A)).
  destruct (number_start s N) as (c & x & E & C). rewrite E at 1. rewrite E at 1. rewrite (not_bool c x C). rewrite (number_is _ N).
  rewrite (no_part is_code r (fun k r2 => lit KCurrency (s ++ L " " ++ k) r2) (fun _ _ => lit KNumber s r) _ eq_refl A). now destruct r.
Qed.
Lemma space_not_dark r : not_begins dark (" "%char :: r). Proof. reflexivity. Qed.
Lemma read_currency_lit a k r : number_syntax a -> code_syntax k -> after r -> read_dark ((a ++ L " " ++ k) ++ r) = lit KCurrency (a ++ L " " ++ k) r.
Proof.
  intros N K A. unfold read_dark. rewrite <- app_assoc. change ((L " " ++ k) ++ r) with (" "%char :: k ++ r).
  rewrite (take_dark _ _ (number_dark _ N) (space_not_dark _)).
  destruct (number_start a N) as (c & x & E & C). rewrite E at 1. rewrite E at 1. rewrite (not_bool c x C). rewrite (number_is _ N).
  destruct (code_is _ K) as [K1 K2]. rewrite (take_dark _ _ K2 (proj1 A)), K1. reflexivity.
Qed.
Lemma date_first s : date_syntax s -> exists c x, s = c :: x /\ (is_digit c = true \/ c = "-"%char).
Proof.
  intros D. destruct (date_shape s D) as (y1 & y2 & y3 & y4 & m1 & m2 & a1 & a2 & -> & F). do 2 eexists. split; [reflexivity|]. left.
  cbn [forallb] in F. now apply andb_prop in F.
Qed.
Lemma no_at r : after r -> word (L " at ") r = None.
Proof.
  intros (_ & _ & B). destruct (word (L " at ") r) as [x|] eqn:W; [|reflexivity]. apply word_spec in W. cbn in W. specialize (B _ W). discriminate B.
Qed.
Lemma read_date_lit s r : date_syntax s -> after r -> read_dark (s ++ r) = lit KDate s r.
Proof.
  intros D A. unfold read_dark. rewrite (take_dark _ _ (date_dark _ D) (proj1 A)).
  destruct (date_first s D) as (c & x & E & C). rewrite E at 1. rewrite E at 1. rewrite (not_bool c x C). rewrite (date_not_number _ D), (date_is _ D), (no_at _ A). reflexivity.
Qed.
Lemma read_local_lit d t r : date_syntax d -> time_syntax t -> after r -> read_dark ((d ++ L " at " ++ t) ++ r) = lit KDateTime (d ++ L " at " ++ t) r.
Proof.
  intros D T A. unfold read_dark. rewrite <- app_assoc. replace ((L " at " ++ t) ++ r) with (L " at " ++ t ++ r) by apply app_assoc.
  rewrite (take_dark d (L " at " ++ t ++ r) (date_dark _ D) (space_not_dark _)).
  destruct (date_first d D) as (c & x & E & C). rewrite E at 1. rewrite E at 1. rewrite (not_bool c x C). rewrite (date_not_number _ D), (date_is _ D).
  rewrite word_app. destruct (time_is _ T) as [T1 T2]. rewrite (take_dark _ _ T2 (proj1 A)), T1.
  rewrite (no_part is_zone r (fun z r4 => lit KDateTime (d ++ L " at " ++ t ++ L " " ++ z) r4) (fun _ _ => lit KDateTime (d ++ L " at " ++ t) r) _ eq_refl A).
  now destruct r.
Qed.
Lemma read_zoned_lit d t z r : date_syntax d -> time_syntax t -> zone_syntax z -> after r ->
  read_dark ((d ++ L " at " ++ t ++ L " " ++ z) ++ r) = lit KDateTime (d ++ L " at " ++ t ++ L " " ++ z) r.
Proof.
  intros D T Z A. unfold read_dark. replace ((d ++ L " at " ++ t ++ L " " ++ z) ++ r) with (d ++ L " at " ++ t ++ " "%char :: z ++ r).
  2:{ rewrite <- app_assoc. f_equal. rewrite <- app_assoc. f_equal. rewrite <- app_assoc. reflexivity. }
  rewrite (take_dark d (L " at " ++ t ++ " "%char :: z ++ r) (date_dark _ D) (space_not_dark _)).
  destruct (date_first d D) as (c & x & E & C). rewrite E at 1. rewrite E at 1. rewrite (not_bool c x C). rewrite (date_not_number _ D), (date_is _ D).
  rewrite word_app. destruct (time_is _ T) as [T1 T2]. rewrite (take_dark _ _ T2 (space_not_dark _)), T1.
  destruct (zone_is _ Z) as [Z1 Z2]. rewrite (take_dark _ _ Z2 (proj1 A)), Z1. reflexivity.
Qed.
Lemma names_dark t i : name_syntax t -> forallb dark i = true -> forallb dark (t ++ L "." ++ i) = true.
Proof.
  intros T I. rewrite forallb_app, (forallb_weaken _ _ _ name_dark (proj2 (name_is _ T))). change (L "." ++ i) with ("."%char :: i). cbn [forallb]. now rewrite I.
Qed.
Lemma name_all_dark t : name_syntax t -> forallb dark t = true.
Proof. intros T. exact (forallb_weaken _ _ _ name_dark (proj2 (name_is _ T))). Qed.
Lemma read_reference_lit t x r : name_syntax t -> forallb dark x = true -> is_reference (t ++ L "." ++ x) = true -> after r ->
  read_dark ((t ++ L "." ++ x) ++ r) = lit KReference (t ++ L "." ++ x) r.
Proof.
  intros T X R A. unfold read_dark. rewrite (take_dark _ _ (names_dark _ _ T X) (proj1 A)).
  change (L "." ++ x) with ("."%char :: x) at 1 2. rewrite dotted_not_bool. destruct (named_not t (L "." ++ x) T) as [N D]. now rewrite N, D, R.
Qed.
Lemma read_bool_lit b r : after r -> read_dark (bool_text b ++ r) = lit KBoolean (bool_text b) r.
Proof. intros A. unfold read_dark. rewrite take_dark; [destruct b; reflexivity|destruct b; reflexivity|exact (proj1 A)]. Qed.
Lemma read_path_lit s r : one_line s -> read_dark ((L "path" ++ [DQ] ++ s ++ [DQ]) ++ r) = lit KPath (L "path" ++ [DQ] ++ s ++ [DQ]) r.
Proof.
  intros S. unfold read_dark. replace ((L "path" ++ [DQ] ++ s ++ [DQ]) ++ r) with (L "path" ++ DQ :: (s ++ DQ :: r)).
  2:{ rewrite <- app_assoc. f_equal. cbn [app]. f_equal. rewrite <- app_assoc. reflexivity. }
  rewrite (take_dark (L "path") (DQ :: s ++ DQ :: r) eq_refl eq_refl). change (word [DQ] (DQ :: s ++ DQ :: r)) with (Some (s ++ DQ :: r)).
  cbn iota beta. rewrite (to_quote_app _ _ S). reflexivity.
Qed.
Lemma read_enum_lit s r : one_line s -> read_dark ((L "enum" ++ [DQ] ++ s ++ [DQ]) ++ r) = lit KEnum (L "enum" ++ [DQ] ++ s ++ [DQ]) r.
Proof.
  intros S. unfold read_dark. replace ((L "enum" ++ [DQ] ++ s ++ [DQ]) ++ r) with (L "enum" ++ DQ :: (s ++ DQ :: r)).
  2:{ rewrite <- app_assoc. f_equal. cbn [app]. f_equal. rewrite <- app_assoc. reflexivity. }
  rewrite (take_dark (L "enum") (DQ :: s ++ DQ :: r) eq_refl eq_refl). change (word [DQ] (DQ :: s ++ DQ :: r)) with (Some (s ++ DQ :: r)).
  cbn iota beta. rewrite (to_quote_app _ _ S). reflexivity.
Qed.
Lemma read_string_lit s r : one_line s -> after r -> read_text_value (([DQ] ++ s ++ [DQ]) ++ r) = lit KString ([DQ] ++ s ++ [DQ]) r.
Proof.
  intros S A. unfold read_text_value. replace (([DQ] ++ s ++ [DQ]) ++ r) with (DQ :: (s ++ DQ :: r)) by (cbn [app]; rewrite <- app_assoc; reflexivity).
  replace (word q3 (DQ :: s ++ DQ :: r)) with (@None str).
  - change (word [DQ] (DQ :: s ++ DQ :: r)) with (Some (s ++ DQ :: r)). cbn iota beta. rewrite (to_quote_app _ _ S). reflexivity.
  - symmetry. destruct (word q3 (DQ :: s ++ DQ :: r)) as [x|] eqn:W; [|reflexivity]. exfalso. apply word_spec in W. injection W as W.
    destruct S as [Q _]. destruct s as [|c s].
    + cbn in W. injection W as W. destruct A as (_ & A & _). rewrite W in A. discriminate A.
    + cbn in W. injection W as -> _. apply Q. now left.
Qed.
Lemma read_lines_lit s r : up_to q3 s -> read_text_value ((q3 ++ s ++ q3) ++ r) = lit KString (q3 ++ s ++ q3) r.
Proof.
  intros S. unfold read_text_value. replace ((q3 ++ s ++ q3) ++ r) with (q3 ++ (s ++ q3 ++ r)) by (rewrite <- !app_assoc; reflexivity).
  rewrite word_app, (to_quotes_app _ _ S). reflexivity.
Qed.

(** A value starts with something that is neither a gap nor punctuation. *)
Definition opens (s : str) : Prop := exists c r, s = c :: r /\ (c = "["%char \/ c = DQ \/ dark c = true).
Lemma dark_opens s x : forallb dark s = true -> s <> [] -> opens (s ++ x).
Proof. intros D N. destruct s as [|c s]; [now elim N|]. exists c, (s ++ x). split; [reflexivity|]. right; right. cbn in D. now apply andb_prop in D. Qed.
Lemma name_not_nil s : name_syntax s -> s <> []. Proof. intros (c & r & -> & _). discriminate. Qed.
Lemma number_not_nil s : number_syntax s -> s <> []. Proof. intros N. destruct (number_start s N) as (c & r & -> & _). discriminate. Qed.
Lemma date_not_nil s : date_syntax s -> s <> []. Proof. intros N. destruct (date_first s N) as (c & r & -> & _). discriminate. Qed.
Lemma literal_opens k raw : literal_syntax k raw -> opens raw.
Proof.
  intros [b|s O|s U|s N|a k' N K|s D|d t D T|d t z D T Z|t i T I|t i f T I F|s O|s O].
  - exists (if b then "t"%char else "f"%char). destruct b; eexists; (split; [reflexivity|now right; right]).
  - exists DQ. eexists. split; [reflexivity|]. now right; left.
  - exists DQ. eexists. split; [reflexivity|]. now right; left.
  - rewrite <- (app_nil_r s). exact (dark_opens _ _ (number_dark _ N) (number_not_nil _ N)).
  - exact (dark_opens _ _ (number_dark _ N) (number_not_nil _ N)).
  - rewrite <- (app_nil_r s). exact (dark_opens _ _ (date_dark _ D) (date_not_nil _ D)).
  - exact (dark_opens _ _ (date_dark _ D) (date_not_nil _ D)).
  - exact (dark_opens _ _ (date_dark _ D) (date_not_nil _ D)).
  - exact (dark_opens _ _ (name_all_dark _ T) (name_not_nil _ T)).
  - exact (dark_opens _ _ (name_all_dark _ T) (name_not_nil _ T)).
  - exists "p"%char. eexists. split; [reflexivity|]. now right; right.
  - exists "e"%char. eexists. split; [reflexivity|]. now right; right.
Qed.
Lemma value_opens v : value_syntax v -> opens (render_value v).
Proof.
  intros [k raw H|g vs t _ _ _]; [exact (literal_opens _ _ H)|]. exists "["%char. eexists. split; [reflexivity|]. now left.
Qed.
Lemma dark_not c : dark c = true -> c <> "["%char /\ c <> DQ /\ c <> "]"%char /\ solid c = true /\ c <> "}"%char.
Proof.
  intros D. assert (W : forall x, dark x = false -> c <> x) by (intros x X ->; congruence).
  repeat split; try (apply W; reflexivity). unfold solid. apply andb_true_intro; split; apply negb_true_iff.
  - destruct (is_ws c) eqn:E; [|reflexivity]. destruct (ws_not_dark c (or_introl E)) as [X _]. congruence.
  - destruct (Ascii.eqb_spec c "/") as [->|]; [discriminate D|reflexivity].
Qed.
Lemma opens_stops s x : opens s -> stops (s ++ x).
Proof. intros (c & r & -> & [->|[->|H]]); [reflexivity|reflexivity|]. cbn. exact (proj1 (proj2 (proj2 (proj2 (dark_not c H))))). Qed.
Lemma opens_not_closing s x : opens s -> word (L "]") (s ++ x) = None.
Proof.
  intros (c & r & -> & H). cbn [app word L list_ascii_of_string]. destruct (Ascii.eqb_spec "]" c) as [<-|]; [|reflexivity].
  exfalso. destruct H as [H|[H|H]]; discriminate H.
Qed.
(** Reading a literal. *)
Lemma read_val_dark n s x : forallb dark s = true -> s <> [] -> read_val (S n) (s ++ x) = read_dark (s ++ x).
Proof.
  intros D N. destruct s as [|c s]; [now elim N|]. cbn [forallb] in D. apply andb_prop in D. destruct D as [D _].
  destruct (dark_not c D) as (N1 & N2 & _). cbn [app read_val].
  destruct (Ascii.eqb_spec c "[") as [E|_]; [now elim N1|]. destruct (Ascii.eqb_spec c DQ) as [E|_]; [now elim N2|]. reflexivity.
Qed.
Lemma read_literal n k raw r : literal_syntax k raw -> after r -> read_val (S n) (raw ++ r) = Some (VNode (Some k) raw [], r).
Proof.
  intros [b|s O|s U|s N|a k' N K|s D|d t D T|d t z D T Z|t i T I|t i f T I F|s O|s O] A.
  - rewrite read_val_dark; [exact (read_bool_lit b r A)|now destruct b|now destruct b].
  - exact (read_string_lit s r O A).
  - exact (read_lines_lit s r U).
  - rewrite read_val_dark; [exact (read_number_lit s r N A)|exact (number_dark _ N)|exact (number_not_nil _ N)].
  - rewrite <- app_assoc. rewrite read_val_dark; [|exact (number_dark _ N)|exact (number_not_nil _ N)]. rewrite app_assoc. exact (read_currency_lit a k' r N K A).
  - rewrite read_val_dark; [exact (read_date_lit s r D A)|exact (date_dark _ D)|exact (date_not_nil _ D)].
  - rewrite <- app_assoc. rewrite read_val_dark; [|exact (date_dark _ D)|exact (date_not_nil _ D)]. rewrite app_assoc. exact (read_local_lit d t r D T A).
  - rewrite <- app_assoc. rewrite read_val_dark; [|exact (date_dark _ D)|exact (date_not_nil _ D)]. rewrite app_assoc. exact (read_zoned_lit d t z r D T Z A).
  - rewrite <- app_assoc. rewrite read_val_dark; [|exact (name_all_dark _ T)|exact (name_not_nil _ T)]. rewrite app_assoc.
    exact (read_reference_lit t i r T (name_all_dark _ I) (entity_is _ _ T I) A).
  - rewrite <- app_assoc. rewrite read_val_dark; [|exact (name_all_dark _ T)|exact (name_not_nil _ T)]. rewrite app_assoc.
    exact (read_reference_lit t (i ++ L "." ++ f) r T (names_dark _ _ I (name_all_dark _ F)) (field_is _ _ _ T I F) A).
  - exact (read_path_lit s r O).
  - exact (read_enum_lit s r O).
Qed.

(** ** Values *)
Fixpoint value_syntax_ind' (P : vnode -> Prop)
  (H1 : forall k raw, literal_syntax k raw -> P (VNode (Some k) raw []))
  (H2 : forall g vs t, gap g -> items_syntax vs t -> Forall value_syntax vs -> Forall P vs -> P (VNode (Some KList) (L "[" ++ g ++ t) vs))
  (v : vnode) (H : value_syntax v) {struct H} : P v :=
  match H in value_syntax v return P v with
  | val_literal k raw h => H1 k raw h
  | val_list g vs t hg hi hf =>
      H2 g vs t hg hi hf
        ((fix go (l : list vnode) (f : Forall value_syntax l) {struct f} : Forall P l :=
            match f in Forall _ l return Forall P l with
            | Forall_nil _ => Forall_nil P
            | @Forall_cons _ _ x l hx hl => Forall_cons x (value_syntax_ind' P H1 H2 x hx) (go l hl)
            end) vs hf)
  end.
Lemma taken_app a r : taken (a ++ r) r = a.
Proof. unfold taken. rewrite app_length. replace (length a + length r - length r) with (length a) by lia. now rewrite firstn_app, Nat.sub_diag, firstn_all, firstn_O, app_nil_r. Qed.
Lemma items_length vs t : items_syntax vs t -> Forall (fun v => length (render_value v) <= length t) vs.
Proof.
  intros H. induction H as [|v g G|v g g' vs t G G' H IH].
  - constructor.
  - constructor; [|constructor]. rewrite app_length. lia.
  - constructor; [rewrite app_length; lia|]. eapply Forall_impl; [|exact IH]. intros w W. cbn beta in *. rewrite !app_length. lia.
Qed.
Lemma items_stops vs t r : items_syntax vs t -> Forall value_syntax vs -> stops (t ++ r).
Proof.
  intros H F. destruct H as [|v g G|v g g' vs t G G' H]; [reflexivity| |]; rewrite <- app_assoc; apply opens_stops, value_opens; now inversion F.
Qed.
Lemma read_list_app (rv : str -> option (vnode * str)) vs t r : items_syntax vs t -> Forall value_syntax vs ->
  Forall (fun v => forall x, after x -> rv (render_value v ++ x) = Some (v, x)) vs ->
  forall m, length t <= m -> read_list rv m (t ++ r) = Some (vs, r).
Proof.
  intros H. induction H as [|v g G|v g g' vs t G G' H IH]; intros F R m Lm.
  - destruct m as [|m]; [cbn in Lm; lia|]. reflexivity.
  - pose proof (value_opens v (Forall_inv F)) as O. destruct O as (c & o & Eo & Oc). assert (O : opens (render_value v)) by (exists c, o; now split).
    rewrite !app_length in Lm. rewrite Eo in Lm. cbn [length] in Lm. destruct m as [|m]; [lia|].
    rewrite <- !app_assoc. cbn [read_list]. rewrite (opens_not_closing _ _ O).
    pose proof (Forall_inv R) as Rv. cbn beta in Rv. rewrite Rv by (apply (after_gap g (L "]" ++ r) G); [reflexivity|right; split; reflexivity]).
    rewrite (skip_app g (L "]" ++ r) G eq_refl). reflexivity.
  - pose proof (value_opens v (Forall_inv F)) as O. destruct O as (c & o & Eo & Oc). assert (O : opens (render_value v)) by (exists c, o; now split).
    rewrite !app_length in Lm. rewrite Eo in Lm. cbn [length] in Lm. destruct m as [|m]; [lia|].
    rewrite <- !app_assoc. cbn [read_list]. rewrite (opens_not_closing _ _ O).
    pose proof (Forall_inv R) as Rv. cbn beta in Rv. rewrite Rv by (apply (after_gap g (L "," ++ g' ++ t ++ r) G); [reflexivity|right; split; reflexivity]).
    rewrite (skip_app g (L "," ++ g' ++ t ++ r) G eq_refl).
    change (L "," ++ g' ++ t ++ r) with (","%char :: g' ++ t ++ r). cbn iota beta. rewrite Ascii.eqb_refl.
    rewrite (skip_app g' (t ++ r) G' (items_stops vs t r H (Forall_inv_tail F))).
    rewrite (IH (Forall_inv_tail F) (Forall_inv_tail R) m) by lia. reflexivity.
Qed.
Lemma read_value_app v : value_syntax v -> forall n r, length (render_value v) <= n -> after r -> read_val n (render_value v ++ r) = Some (v, r).
Proof.
  intros V. revert v V. apply (value_syntax_ind' (fun v => forall n r, length (render_value v) <= n -> after r -> read_val n (render_value v ++ r) = Some (v, r))).
  - intros k raw H n r Ln A. cbn [render_value] in *. destruct (literal_opens _ _ H) as (c & x & E & _). destruct n as [|n]; [rewrite E in Ln; cbn in Ln; lia|].
    exact (read_literal n k raw r H A).
  - intros g vs t G I F IH n r Ln A. cbn [render_value] in *. change (L "[" ++ g ++ t) with ("["%char :: g ++ t) in *. destruct n as [|n]; [cbn in Ln; lia|].
    cbn [length] in Ln. rewrite app_length in Ln. cbn [app read_val]. rewrite Ascii.eqb_refl.
    rewrite <- app_assoc. rewrite (skip_app g (t ++ r) G (items_stops vs t r I F)).
    rewrite (read_list_app (read_val n) vs t r I F).
    + do 3 f_equal. change ("["%char :: g ++ t ++ r) with (("["%char :: g) ++ t ++ r). rewrite app_assoc. exact (taken_app _ _).
    + pose proof (items_length vs t I) as Lt. rewrite Forall_forall in *. intros w W x Ax. apply (IH w W); [|exact Ax]. specialize (Lt w W). cbn beta in Lt. lia.
    + cbn [length]. rewrite !app_length. lia.
Qed.

(** ** Blocks *)
Lemma name_stops s x : name_syntax s -> stops (s ++ x).
Proof. intros N. apply opens_stops. rewrite <- (app_nil_r s). exact (dark_opens _ _ (name_all_dark _ N) (name_not_nil _ N)). Qed.
Lemma name_not_close s x : name_syntax s -> word (L "}") (s ++ x) = None.
Proof.
  intros N. pose proof (name_all_dark _ N) as D. destruct s as [|c s]; [now elim (name_not_nil _ N)|]. cbn [forallb] in D. apply andb_prop in D.
  destruct D as [D _]. destruct (dark_not c D) as (_ & _ & _ & _ & X). cbn [app word L list_ascii_of_string]. destruct (Ascii.eqb_spec "}" c) as [E|]; [now elim X|reflexivity].
Qed.
Lemma gap_not_name g x : gap g -> not_begins name_char x -> not_begins name_char (g ++ x).
Proof.
  intros G X. destruct (gap_start g G) as [->|(c & r & -> & C)]; [exact X|]. cbn. destruct (ws_not_dark c C) as [D _].
  destruct (name_char c) eqn:E; [|reflexivity]. now rewrite (name_dark _ E) in D.
Qed.
Lemma read_name_run s r : name_syntax s -> take_run name_char (s ++ r) = (s, r) -> read_name (s ++ r) = (s, r).
Proof.
  intros (c & t & -> & C & _) E. unfold read_name. rewrite E. cbn [app].
  replace (is_digit c) with false; [reflexivity|]. symmetry. destruct C as [C| ->]; [|reflexivity].
  destruct c as [[] [] [] [] [] [] [] []]; vm_compute in C; vm_compute; congruence.
Qed.
Lemma take_name s g x : name_syntax s -> gap g -> not_begins name_char x -> read_name (s ++ g ++ x) = (s, g ++ x).
Proof. intros N G X. apply read_name_run; [exact N|]. exact (take_run_all _ _ _ (proj2 (name_is _ N)) (gap_not_name _ _ G X)). Qed.
Lemma take_name' s g x : name_syntax s -> gap g -> g <> [] -> read_name (s ++ g ++ x) = (s, g ++ x).
Proof.
  intros N G X. apply read_name_run; [exact N|]. apply (take_run_all _ _ _ (proj2 (name_is _ N))). destruct (gap_start g G) as [E|(c & r & -> & C)]; [now elim X|]. cbn.
  destruct (ws_not_dark c C) as [D _]. destruct (name_char c) eqn:E; [|reflexivity]. now rewrite (name_dark _ E) in D.
Qed.
Lemma fields_stops fs t x : fields_syntax fs t -> stops (t ++ x).
Proof. intros [|name g1 g2 v g3 fs' t' N _ _ _ _ _ _]; [reflexivity|]. rewrite <- app_assoc. exact (name_stops _ _ N). Qed.
Lemma field_text_start fs t x : fields_syntax fs t -> fs = [] -> not_begins dark (t ++ x) /\ not_begins is_quote (t ++ x).
Proof. intros [|? ? ? ? ? ? ? ? ? ? ? ? ? ?] E; [now split|discriminate E]. Qed.
Lemma value_length v : value_syntax v -> 1 <= length (render_value v).
Proof. intros V. destruct (value_opens v V) as (c & r & -> & _). cbn. lia. Qed.
Lemma name_length v : name_syntax v -> 1 <= length v.
Proof. intros (c & r & -> & _). cbn. lia. Qed.
Lemma read_fields_app fs t : fields_syntax fs t -> forall n r, length t <= n -> read_block_fields n (t ++ r) = Some (fs, r).
Proof.
  intros H. induction H as [|name g1 g2 v g3 fs t N G1 G2 V G3 Lf H IH]; intros n r Ln.
  - destruct n as [|n]; [cbn in Ln; lia|]. reflexivity.
  - rewrite !app_length in Ln. pose proof (name_length _ N) as Nl. pose proof (value_length _ V) as Vl. destruct n as [|n]; [lia|].
    rewrite <- !app_assoc. cbn [read_block_fields]. rewrite (name_not_close _ _ N).
    rewrite (take_name name g1 _ N G1) by reflexivity. rewrite (skip_app g1 _ G1) by reflexivity. rewrite word_app.
    assert (A : after (g3 ++ t ++ r)).
    { apply after_gap; [exact G3|exact (fields_stops _ _ _ H)|]. destruct fs as [|f fs]; [right; exact (field_text_start _ _ _ H eq_refl)|left; now apply Lf]. }
    rewrite (skip_app g2 _ G2) by (apply opens_stops, value_opens, V).
    rewrite (read_value_app v V _ (g3 ++ t ++ r)); [|rewrite !app_length; lia|exact A].
    rewrite (skip_app g3 (t ++ r) G3 (fields_stops _ _ _ H)). rewrite IH by lia. reflexivity.
Qed.
Lemma blocks_stops bs t x : blocks_syntax bs t -> stops (t ++ x).
Proof. intros [|g1 g2 fs body g3 bs' t' _ _ _ _ _]; reflexivity. Qed.
Lemma field_name : name_syntax (L "field").
Proof. exists "f"%char, (L "ield"). split; [reflexivity|]. split; [now left|]. repeat constructor. Qed.
Lemma schema_name : name_syntax (L "schema").
Proof. exists "s"%char, (L "chema"). split; [reflexivity|]. split; [now left|]. repeat constructor. Qed.
Lemma fields_length fs t : fields_syntax fs t -> 1 <= length t.
Proof. intros [|name g1 g2 v g3 fs' t' N _ _ _ _ _ _]; [cbn; lia|]. rewrite app_length. pose proof (name_length _ N). lia. Qed.
Lemma read_blocks_app bs t : blocks_syntax bs t -> forall n r, length t <= n -> read_blocks n (t ++ r) = Some (bs, r).
Proof.
  intros H. induction H as [|g1 g2 fs body g3 bs t G1 G2 F G3 H IH]; intros n r Ln.
  - destruct n as [|n]; [cbn in Ln; lia|]. reflexivity.
  - rewrite !app_length in Ln. change (length (L "field")) with 5 in Ln. destruct n as [|n]; [lia|].
    rewrite <- !app_assoc. cbn [read_blocks]. rewrite (name_not_close _ _ field_name).
    rewrite (take_name (L "field") g1 _ field_name G1) by reflexivity. rewrite (skip_app g1 _ G1) by reflexivity. rewrite word_app.
    rewrite (skip_app g2 _ G2) by exact (fields_stops _ _ _ F).
    rewrite (read_fields_app _ _ F) by (rewrite !app_length; lia).
    rewrite (skip_app g3 (t ++ r) G3 (blocks_stops _ _ _ H)). rewrite IH by lia. reflexivity.
Qed.
Lemma read_file_app bs t : file_syntax bs t -> forall n, length t < n -> read_file n t = Some (tree_of bs).
Proof.
  intros H. induction H as [g G|g t g1 i g2 g3 fs body bs rest G N Ns G1 G1n I G2 G3 F H IH|g g1 i g2 g3 ns body bs rest G G1 G1n I G2 G3 B H IH]; intros n Ln.
  - destruct n as [|n]; [lia|]. cbn [read_file]. rewrite (skip_last g G). reflexivity.
  - rewrite !app_length in Ln. destruct n as [|n]; [lia|]. cbn [read_file]. rewrite (skip_app g _ G) by exact (name_stops _ _ N).
    destruct (t ++ g1 ++ i ++ g2 ++ L "{" ++ g3 ++ body ++ rest) as [|c x] eqn:E; [pose proof (name_length _ N) as X; destruct t; [cbn in X; lia|discriminate]|].
    rewrite <- E. clear c x E. rewrite (take_name' t g1 _ N G1 G1n). rewrite (skip_app g1 _ G1) by exact (name_stops _ _ I).
    rewrite (take_name i g2 _ I G2) by reflexivity. rewrite (skip_app g2 _ G2) by reflexivity. rewrite word_app.
    rewrite (proj2 (str_eqb_neq t (L "schema")) Ns). rewrite (skip_app g3 _ G3) by exact (fields_stops _ _ _ F).
    rewrite (read_fields_app _ _ F) by (rewrite !app_length; lia). pose proof (fields_length _ _ F). rewrite IH by lia. reflexivity.
  - rewrite !app_length in Ln. destruct n as [|n]; [lia|]. cbn [read_file]. rewrite (skip_app g _ G) by exact (name_stops _ _ schema_name).
    destruct (L "schema" ++ g1 ++ i ++ g2 ++ L "{" ++ g3 ++ body ++ rest) as [|c x] eqn:E; [discriminate|].
    rewrite <- E. clear c x E. rewrite (take_name' (L "schema") g1 _ schema_name G1 G1n). rewrite (skip_app g1 _ G1) by exact (name_stops _ _ I).
    rewrite (take_name i g2 _ I G2) by reflexivity. rewrite (skip_app g2 _ G2) by reflexivity. rewrite word_app.
    rewrite str_eqb_refl. rewrite (skip_app g3 _ G3) by exact (blocks_stops _ _ _ B).
    change (length (L "schema")) with 6 in Ln. rewrite (read_blocks_app _ _ B) by (rewrite !app_length; lia). rewrite IH by lia. reflexivity.
Qed.
Lemma reads_syntax : follows_syntax read_source_text.
Proof. intros bs text H. unfold read_source_text. rewrite (read_file_app bs text H) by lia. reflexivity. Qed.
