(** Parsing what [S_QText] spells. *)
From Coq Require Import Lia.
From Verif Require Import S_QText L_Str L_Num L_FloatInt.
Close Scope Z_scope.

(** ** Characters *)
Lemma is_ws_spec c : is_ws c = true <-> (c = " "%char \/ c = ascii_of_nat 9 \/ c = ascii_of_nat 10).
Proof. unfold is_ws. rewrite !orb_true_iff, !Ascii.eqb_eq. tauto. Qed.
Lemma ident_char_spec c : ident_char c = true <-> letter_or_digit c.
Proof. unfold ident_char, letter_or_digit. rewrite orb_true_iff, Ascii.eqb_eq. tauto. Qed.
Lemma digit_ident c : is_digit c = true -> ident_char c = true.
Proof. unfold ident_char, is_alnum. intros ->. rewrite !orb_true_r. reflexivity. Qed.
Lemma alpha_ident c : is_alpha c = true -> ident_char c = true.
Proof. unfold ident_char, is_alnum. intros ->. reflexivity. Qed.
Lemma start_ident c : ident_start c = true -> ident_char c = true.
Proof. unfold ident_char, ident_start, is_alnum. rewrite !orb_true_iff. tauto. Qed.

Ltac chars := repeat match goal with
  | c : ascii |- _ => destruct c as [[] [] [] [] [] [] [] []]
  end; try reflexivity; try discriminate.
Lemma alpha_not_digit c : is_alpha c = true -> is_digit c = false. Proof. chars. Qed.
Lemma start_not_digit c : ident_start c = true -> is_digit c = false. Proof. chars. Qed.
Lemma ident_not_ws c : ident_char c = true -> is_ws c = false. Proof. chars. Qed.
Lemma digit_not_alpha c : is_digit c = true -> ident_start c = false. Proof. chars. Qed.

(** ** White space and layout *)
Lemma skip_blank w s : blank w -> skip (w ++ s) = skip s.
Proof.
  induction w as [|c w IH]; intros H; auto. inversion H as [|? ? C H']; subst. cbn.
  apply is_ws_spec in C. rewrite C. auto.
Qed.
Lemma skip_blank_nil w : blank w -> skip w = [].
Proof. intros H. rewrite <- (app_nil_r w), skip_blank; auto. Qed.
Lemma skip_idem s : skip (skip s) = skip s.
Proof. induction s as [|c s IH]; auto. cbn. destruct (is_ws c) eqn:E; auto. cbn. rewrite E. auto. Qed.
Lemma skip_length s : length (skip s) <= length s.
Proof. induction s as [|c s IH]; cbn; auto. destruct (is_ws c); cbn; lia. Qed.

(** A token starts with something other than white space. *)
Definition tok (t : str) : Prop := exists c r, t = c :: r /\ is_ws c = false.
Lemma skip_tok t s : tok t -> skip (t ++ s) = t ++ s.
Proof. intros (c & r & -> & H). cbn. rewrite H. reflexivity. Qed.

Lemma lay_inv t ts text : lay (t :: ts) text -> tok t ->
  exists rest, skip text = t ++ rest /\ lay ts rest /\ apart t rest /\ no_zone_after t rest /\
  length rest < length text.
Proof.
  intros H T. inversion H as [|w t' ts' rest B A Z Ly]; subst. exists rest.
  rewrite skip_blank, skip_tok by auto. repeat split; auto.
  rewrite !app_length. destruct T as (c & r & -> & _). cbn. lia.
Qed.
Lemma lay_skip ts text : lay ts text -> Forall tok ts ->
  match ts with [] => skip text = [] | t :: _ => exists r, skip text = t ++ r end.
Proof.
  intros H T. destruct ts as [|t ts].
  - inversion H; subst. apply skip_blank_nil; auto.
  - inversion T; subst. destruct (lay_inv _ _ _ H) as (r & E & _); eauto.
Qed.
(** What can come right after a token. *)
Lemma lay_head ts c rest : lay ts (c :: rest) -> Forall tok ts ->
  is_ws c = true \/ exists r ts', ts = (c :: r) :: ts'.
Proof.
  intros H T. remember (c :: rest) as text eqn:E. destruct H as [w B|w t ts rest' B A Z Ly].
  - left. subst. inversion B; subst. apply is_ws_spec; auto.
  - destruct w as [|d w].
    + right. inversion T as [|? ? Tt _]; subst. destruct Tt as (e & r & -> & _).
      cbn in E. injection E as -> _. eauto.
    + left. cbn in E. injection E as -> _. inversion B; subst. apply is_ws_spec; auto.
Qed.

(** ** Literals *)
Lemma lit_app w s : lit w (w ++ s) = Some s.
Proof. induction w as [|c w IH]; cbn; auto. rewrite Ascii.eqb_refl. auto. Qed.
Lemma lit_spec w s r : lit w s = Some r <-> s = w ++ r.
Proof.
  split; [|intros ->; apply lit_app].
  revert s. induction w as [|c w IH]; intros [|d s]; cbn; try discriminate; try congruence.
  destruct (Ascii.eqb_spec c d); [|discriminate]. subst. intros H. f_equal. auto.
Qed.
Lemma lit_head w d s : match w with c :: _ => c <> d | [] => False end -> lit w (d :: s) = None.
Proof. destruct w as [|c w]; intros H; [contradiction|]. cbn. destruct (Ascii.eqb_spec c d); congruence. Qed.
Lemma lit_nocase_spec w s r : lit_nocase w s = Some r <-> exists w', lower w' = lower w /\ s = w' ++ r.
Proof.
  split.
  - revert s. induction w as [|c w IH]; intros [|d s]; cbn; try discriminate.
    + intros [= <-]. exists []. auto.
    + intros [= <-]. exists []. auto.
    + destruct (Ascii.eqb_spec (lower_ascii c) (lower_ascii d)) as [E|]; [|discriminate].
      intros H. apply IH in H as (w' & E' & ->). exists (d :: w'). split; auto. cbn. rewrite E. f_equal. exact E'.
  - intros (w' & E & ->). revert w' E. induction w as [|c w IH]; intros [|d w'] E; cbn in *; try discriminate; auto.
    injection E as E1 E2. rewrite E1, Ascii.eqb_refl. auto.
Qed.

(** ** Spans *)
Lemma span_app p a b : Forall (fun c => p c = true) a -> match b with c :: _ => p c = false | [] => True end ->
  span p (a ++ b) = (a, b).
Proof.
  intros F H. induction F as [|c a C F IH]; cbn.
  - destruct b as [|c b]; auto. cbn. rewrite H. auto.
  - rewrite C, IH. auto.
Qed.

(** Last character of a word. *)
Lemma last_of {A} (c : A) s : exists s' d, c :: s = s' ++ [d].
Proof. destruct (exists_last (l := c :: s)) as (s' & d & E); [discriminate|eauto]. Qed.
Lemma apart_word t rest : apart t rest -> t <> [] -> Forall letter_or_digit t ->
  match rest with c :: _ => ident_char c = false | [] => True end.
Proof.
  intros A N F. destruct rest as [|d rest]; auto. destruct t as [|c t]; [congruence|].
  destruct (last_of c t) as (t' & e & E). rewrite E in *.
  destruct (ident_char d) eqn:D; auto. exfalso.
  apply ident_char_spec in D. eapply A; eauto.
  apply Forall_app in F as [_ F]. inversion F; auto.
Qed.

(** ** Identifiers, fields, selectors, operators *)
Lemma identifier_word t : identifier t -> Forall letter_or_digit t.
Proof.
  intros (c & r & -> & S & F). constructor; auto. apply ident_char_spec, start_ident.
  unfold ident_start. rewrite orb_true_iff, Ascii.eqb_eq. auto.
Qed.
Lemma identifier_tok t : identifier t -> tok t.
Proof.
  intros H. pose proof (identifier_word t H) as F. destruct H as (c & r & -> & _). exists c, r. split; auto.
  inversion F; subst. apply ident_not_ws, ident_char_spec. auto.
Qed.
Lemma p_ident_ok' t rest : identifier t -> match rest with c :: _ => ident_char c = false | [] => True end ->
  p_ident (t ++ rest) = Some (t, rest).
Proof.
  intros (c & r & -> & S & F) H. cbn.
  assert (E : ident_start c = true) by (unfold ident_start; rewrite orb_true_iff, Ascii.eqb_eq; auto).
  rewrite E, span_app; auto. eapply Forall_impl; [|exact F]. intros; apply ident_char_spec; auto.
Qed.
Lemma p_ident_ok t rest : identifier t -> apart t rest -> p_ident (t ++ rest) = Some (t, rest).
Proof.
  intros I A. apply p_ident_ok'; auto. apply (apart_word t); auto; [|apply identifier_word; auto].
  destruct I as (c & r & -> & _). discriminate.
Qed.
Lemma identifier_head t : identifier t -> exists c r, t = c :: r /\ ident_start c = true.
Proof. intros (c & r & -> & S & _). exists c, r. split; auto. unfold ident_start. rewrite orb_true_iff, Ascii.eqb_eq. auto. Qed.

Definition is_tok_text (s : string) : Prop := tok (L s).
Ltac known_tok := eexists _, _; split; [reflexivity|reflexivity].

Lemma field_toks f ts : field_tokens f ts -> Forall tok ts /\ ts <> [].
Proof.
  destruct f; intros [I ->]; (split; [|discriminate]).
  - constructor; [known_tok|]. constructor; [apply identifier_tok; auto|constructor].
  - constructor; [apply identifier_tok; auto|constructor].
Qed.
Lemma p_field_ok f ts more text : field_tokens f ts -> lay (ts ++ more) text ->
  exists rest, p_field (skip text) = Some (f, rest) /\ lay more rest /\ length rest < length text.
Proof.
  destruct f as [n|n]; intros [I ->] H; cbn in H.
  - apply lay_inv in H as (r1 & E1 & H1 & _ & _ & L1); [|known_tok].
    apply lay_inv in H1 as (r2 & E2 & H2 & A & _ & L2); [|apply identifier_tok; auto].
    exists r2. unfold p_field. rewrite E1, lit_app, E2, p_ident_ok by auto. cbn. repeat split; auto. lia.
  - apply lay_inv in H as (r1 & E1 & H1 & A & _ & L1); [|apply identifier_tok; auto].
    exists r1. unfold p_field. rewrite E1, p_ident_ok by auto.
    destruct (identifier_head n I) as (c & r & -> & C).
    replace (lit (L "@") ((c :: r) ++ r1)) with (@None str); [cbn; repeat split; auto|].
    symmetry. apply lit_head. intros <-. discriminate.
Qed.

Lemma selector_tok s t : selector_token s t -> tok t.
Proof. destruct s; cbn; [intros ->; known_tok|intros [I ->]; apply identifier_tok; auto]. Qed.
Lemma p_selector_ok s t more text : selector_token s t -> lay (t :: more) text ->
  exists rest, p_selector (skip text) = Some (s, rest) /\ lay more rest /\ length rest < length text.
Proof.
  intros S H. apply lay_inv in H as (r & E & H & A & _ & Ln); [|eapply selector_tok; eauto].
  exists r. rewrite E. unfold p_selector. destruct s as [|n]; cbn in S.
  - subst t. rewrite lit_app. cbn. auto.
  - destruct S as [I ->]. destruct (identifier_head n I) as (c & r' & -> & C).
    replace (lit (L "*") ((c :: r') ++ r)) with (@None str); [rewrite p_ident_ok by auto; cbn; auto|].
    symmetry. apply lit_head. intros <-. discriminate.
Qed.

Lemma operator_tok o : tok (operator_text o).
Proof. destruct o; known_tok. Qed.
Lemma p_operator_ok o more text : lay (operator_text o :: more) text -> Forall tok more ->
  match more with (c :: _) :: _ => c <> "="%char | _ => True end ->
  exists rest, p_operator (skip text) = Some (o, rest) /\ lay more rest /\ length rest < length text.
Proof.
  intros H T N. apply lay_inv in H as (r & E & H & A & _ & Ln); [|apply operator_tok].
  exists r. rewrite E. split; [|auto]. unfold p_operator, operators.
  destruct o; try (cbn; reflexivity).
  - (* > *) destruct r as [|c r]; [reflexivity|]. cbn.
    destruct c as [[] [] [] [] [] [] [] []]; try reflexivity.
    exfalso. destruct (lay_head _ _ _ H T) as [W|(r' & ts' & ->)]; [discriminate|]. apply N. reflexivity.
  - destruct r as [|c r]; [reflexivity|]. cbn.
    destruct c as [[] [] [] [] [] [] [] []]; try reflexivity.
    exfalso. destruct (lay_head _ _ _ H T) as [W|(r' & ts' & ->)]; [discriminate|]. apply N. reflexivity.
Qed.

(** ** Numbers *)
Lemma p_digits_ok a rest : some_digits a -> match rest with c :: _ => is_digit c = false | [] => True end ->
  p_digits (a ++ rest) = Some (a, rest).
Proof.
  intros [N F] H. unfold p_digits. rewrite span_app by auto. destruct a; [congruence|reflexivity].
Qed.
(** [rest] does not continue a number. *)
Definition num_end (rest : str) : Prop :=
  match rest with c :: _ => is_digit c = false /\ c <> "."%char | [] => True end.
Lemma number_shape t : number_text t -> exists c r, t = c :: r /\ (is_digit c = true \/ c = "-"%char) /\
  exists t' d, t = t' ++ [d] /\ is_digit d = true.
Proof.
  intros (sg & a & S & [N F] & T).
  assert (La : exists a' d, a = a' ++ [d] /\ is_digit d = true).
  { destruct a as [|x a]; [congruence|]. destruct (last_of x a) as (a' & d & E). rewrite E in *.
    apply Forall_app in F as [_ F]. inversion F; eauto. }
  assert (Ha : exists c r, sg ++ a = c :: r /\ (is_digit c = true \/ c = "-"%char)).
  { destruct S as [->| ->]; cbn; eauto. destruct a as [|x a]; [congruence|]. inversion F; eauto. }
  destruct Ha as (c & r & E & C). destruct T as [->|(b & [Nb Fb] & ->)].
  - exists c, r. repeat split; auto. destruct La as (a' & d & -> & D). exists (sg ++ a'), d. rewrite app_assoc. auto.
  - exists c, (r ++ L "." ++ b). rewrite app_assoc, E. repeat split; auto.
    destruct b as [|x b]; [congruence|]. destruct (last_of x b) as (b' & d & Eb). rewrite Eb in *.
    apply Forall_app in Fb as [_ Fb]. inversion Fb; subst.
    exists (c :: r ++ L "." ++ b'), d. split; auto. cbn. f_equal. rewrite <- !app_assoc. reflexivity.
Qed.
Lemma number_tok t : number_text t -> tok t.
Proof.
  intros H. destruct (number_shape t H) as (c & r & -> & C & _). exists c, r. split; auto.
  destruct C as [C| ->]; [apply ident_not_ws, digit_ident; auto|reflexivity].
Qed.
Lemma digits_head a c r : Forall (fun c => is_digit c = true) a -> a = c :: r -> c <> "-"%char.
Proof. intros F -> ->. inversion F; discriminate. Qed.
Lemma p_number_ok t rest : number_text t -> num_end rest -> p_number (t ++ rest) = Some (t, rest).
Proof.
  intros (sg & a & S & D & T) H.
  assert (Hr : match rest with c :: _ => is_digit c = false | [] => True end) by (destruct rest; auto; apply H).
  assert (P : forall s sg' s0, (sg' = [] \/ sg' = L "-") -> s = sg' ++ s0 -> (sg' = [] -> forall c r, s0 = c :: r -> c <> "-"%char) ->
    match lit (L "-") s return list ascii * str with Some r => @pair (list ascii) str (L "-") r | None => @pair (list ascii) str [] s end = (sg', s0)).
  { intros s sg' s0 [->| ->] -> Q; [|cbn; reflexivity]. cbn [app]. destruct s0 as [|c s0]; [reflexivity|].
    rewrite lit_head; auto. cbn. intros E. symmetry in E. revert E. eapply Q; eauto. }
  unfold p_number.
  destruct T as [->|(b & Db & ->)].
  - rewrite (P ((sg ++ a) ++ rest) sg (a ++ rest)); auto.
    + rewrite p_digits_ok by auto.
      destruct rest as [|c rest]; [reflexivity|]. rewrite lit_head; [reflexivity|]. cbn. destruct H as [_ H]. congruence.
    + rewrite app_assoc. auto.
    + intros _ c r E. destruct D as [N F]. destruct a as [|x a]; [congruence|]. cbn in E. injection E as -> _.
      eapply digits_head; eauto.
  - rewrite (P ((sg ++ a ++ L "." ++ b) ++ rest) sg (a ++ L "." ++ b ++ rest)); auto.
    + rewrite p_digits_ok; [|auto|cbn; reflexivity].
      change (L "." ++ b ++ rest) with (L "." ++ (b ++ rest)). rewrite lit_app, p_digits_ok by auto. reflexivity.
    + rewrite <- !app_assoc. reflexivity.
    + intros _ c r E. destruct D as [N F]. destruct a as [|x a]; [congruence|]. cbn in E. injection E as -> _.
      eapply digits_head; eauto.
Qed.
Lemma p_number_none c s : is_digit c = false -> c <> "-"%char -> p_number (c :: s) = None.
Proof.
  intros D N. unfold p_number. rewrite lit_head by (cbn; congruence). unfold p_digits. cbn. rewrite D. reflexivity.
Qed.

(** ** What follows a value *)
Definition after_value (more : list str) : Prop :=
  match more with
  | [] => True
  | t :: _ => t = L "|" \/ t = L "," \/ t = L "]" \/ lower t = L "and" \/ lower t = L "or"
  end.
Lemma after_value_head more c rest : after_value more -> Forall tok more -> lay more (c :: rest) ->
  c <> "."%char /\ c <> "-"%char.
Proof.
  intros A T H. destruct (lay_head _ _ _ H T) as [W|(r & ts & ->)].
  - split; intros ->; discriminate.
  - cbn in A. destruct A as [A|[A|[A|[A|A]]]]; injection A as A; subst; split; try discriminate; intros ->; discriminate.
Qed.
Lemma num_end_after t more rest : number_text t -> apart t rest -> after_value more -> Forall tok more -> lay more rest ->
  num_end rest.
Proof.
  intros N A AV T H. destruct rest as [|c rest]; cbn; auto. split.
  - destruct (number_shape t N) as (_ & _ & _ & _ & t' & d & E & D).
    destruct (is_digit c) eqn:C; auto. exfalso. eapply (A t' d c rest); eauto; apply ident_char_spec, digit_ident; auto.
  - apply (after_value_head more c rest); auto.
Qed.
Lemma lower_eq_nocase t w : lower t = lower w -> forall r, lit_nocase w (t ++ r) = Some r.
Proof. intros E r. apply lit_nocase_spec. eauto. Qed.
Lemma p_combinator_ok k t r : combinator_token k t -> p_combinator (t ++ r) = Some (t, r).
Proof.
  intros C. unfold combinator_token in C. unfold p_combinator. destruct k.
  - rewrite (lower_eq_nocase t (L "and")) by exact C.
    assert (length t = 3) by (apply (f_equal (@length _)) in C; unfold lower in C; rewrite map_length in C; exact C).
    destruct t as [|? [|? [|? [|]]]]; try discriminate. reflexivity.
  - replace (lit_nocase (L "and") (t ++ r)) with (@None str).
    + rewrite (lower_eq_nocase t (L "or")) by exact C.
      assert (length t = 2) by (apply (f_equal (@length _)) in C; unfold lower in C; rewrite map_length in C; exact C).
      destruct t as [|? [|? [|]]]; try discriminate. reflexivity.
    + symmetry. destruct t as [|c t]; [discriminate|]. cbn in C. injection C as C _. cbn. rewrite C. reflexivity.
Qed.
Lemma p_code_none more rest : after_value more -> Forall tok more -> lay more rest -> p_code (skip rest) = None.
Proof.
  intros A T H. apply lay_skip in H; auto. destruct more as [|t more].
  - rewrite H. reflexivity.
  - destruct H as (r & ->). cbn in A. destruct A as [->|[->|[->|[A|A]]]];
      try (cbn; destruct r as [|? [|? ?]]; reflexivity).
    + unfold p_code. rewrite (p_combinator_ok CAnd t r) by exact A. reflexivity.
    + unfold p_code. rewrite (p_combinator_ok COr t r) by exact A. reflexivity.
Qed.
Lemma combinator_tok k t : combinator_token k t -> tok t.
Proof.
  intros C. unfold combinator_token in C. destruct t as [|c t]; [destruct k; discriminate|]. exists c, t. split; auto.
  destruct (is_ws c) eqn:W; auto. apply is_ws_spec in W as [->|[->| ->]]; destruct k; discriminate.
Qed.

(** ** Dates *)
Lemma p_ndigits_ok n a rest : digits n a -> p_ndigits n (a ++ rest) = Some (a, rest).
Proof.
  revert a. induction n as [|n IH]; intros a [Ln F].
  - destruct a; [reflexivity|discriminate].
  - destruct a as [|c a]; [discriminate|]. inversion F as [|? ? C F']; subst. cbn. rewrite C.
    rewrite IH; [reflexivity|]. split; auto.
Qed.
Lemma date_shape s : date_form s -> exists c r, s = c :: r /\ is_digit c = true.
Proof.
  intros (y & m & d & [Ly Fy] & _ & _ & ->). destruct y as [|c y]; [discriminate|]. inversion Fy; subst. cbn. eauto.
Qed.
(** The date part, up to the optional time. *)
Lemma p_datetime_date s rest : date_form s ->
  p_datetime (s ++ rest) = match p_time rest with Some (t, r) => Some (s ++ t, r) | None => Some (s, rest) end.
Proof.
  intros (y & m & d & Dy & Dm & Dd & ->). unfold p_datetime. rewrite <- !app_assoc.
  rewrite p_ndigits_ok by auto. rewrite lit_app. rewrite p_ndigits_ok by auto. rewrite lit_app.
  rewrite p_ndigits_ok by auto. destruct (p_time rest) as [[t r]|]; rewrite <- ?app_assoc; reflexivity.
Qed.
Lemma p_datetime_time s rest : time_form s ->
  p_datetime (s ++ rest) = match p_zone rest with Some (z, r) => Some (s ++ z, r) | None => Some (s, rest) end.
Proof.
  intros (d & h & m & Dd & Dh & Dm & ->). rewrite <- app_assoc, p_datetime_date by auto.
  unfold p_time. rewrite <- !app_assoc, lit_app. rewrite p_ndigits_ok by auto. rewrite lit_app.
  rewrite p_ndigits_ok by auto. destruct (p_zone rest) as [[z r]|]; rewrite <- ?app_assoc; reflexivity.
Qed.
(** A date is not a currency amount. *)
Lemma p_currency_date s rest : date_form s -> p_currency (s ++ rest) = None.
Proof.
  intros (y & m & d & [Ly Fy] & Dm & Dd & ->). unfold p_currency. rewrite <- !app_assoc.
  rewrite (p_number_ok y).
  - generalize (m ++ L "-" ++ d ++ rest). intros [|? [|? ?]]; reflexivity.
  - exists [], y. repeat split; auto. intros ->; discriminate.
  - cbn. split; [reflexivity|discriminate].
Qed.
(** A number is not a date. *)
Lemma p_datetime_number t rest : number_text t -> num_end rest -> (forall r, rest <> "-"%char :: r) -> p_datetime (t ++ rest) = None.
Proof.
  intros (sg & a & Sg & [N F] & T) E M.
  assert (K : forall n b r, n > 0 -> Forall (fun c => is_digit c = true) b -> b <> [] ->
     num_end r \/ (exists q, r = "."%char :: q) ->
     match p_ndigits n (b ++ r) with
     | None => True
     | Some (_, r') => match lit (L "-") r' with Some _ => exists q, r' = "-"%char :: q /\ r = r' | None => True end
     end).
  { induction n as [|n IH]; intros b r Hn Fb Nb Hr; [lia|]. destruct b as [|c b]; [congruence|].
    inversion Fb as [|? ? C Fb']; subst. cbn [app p_ndigits]. rewrite C.
    destruct b as [|c' b].
    - cbn [app]. destruct n as [|n].
      + cbn [p_ndigits]. destruct (lit (L "-") r) eqn:El; auto. apply lit_spec in El. subst r. eexists. split; reflexivity.
      + destruct r as [|x r]; [exact I|]. cbn [p_ndigits].
        assert (X : is_digit x = false) by (destruct Hr as [[Hr _]|(q & Hr)]; [auto|injection Hr as -> _; reflexivity]).
        rewrite X. exact I.
    - destruct n as [|n].
      + cbn [p_ndigits app]. rewrite lit_head; auto. inversion Fb'; subst. cbn. intros <-. discriminate.
      + specialize (IH (c' :: b) r). destruct (p_ndigits (S n) ((c' :: b) ++ r)) as [[? ?]|]; auto.
        apply IH; auto; [lia|discriminate]. }
  destruct Sg as [->| ->]; [|destruct T as [->|(b & _ & ->)]; reflexivity].
  unfold p_datetime. cbn [app] in T.
  destruct T as [->|(b & Db & ->)].
  - specialize (K 4 a rest ltac:(lia) F N (or_introl E)).
    destruct (p_ndigits 4 (a ++ rest)) as [[y r1]|]; auto. destruct (lit (L "-") r1); auto.
    destruct K as (q & -> & ->). exfalso. eapply M; eauto.
  - specialize (K 4 a (L "." ++ b ++ rest) ltac:(lia) F N (or_intror (ex_intro _ (b ++ rest) eq_refl))).
    rewrite <- !app_assoc. cbn [app list_ascii_of_string] in *.
    destruct (p_ndigits 4 (a ++ "."%char :: b ++ rest)) as [[y r1]|]; auto. destruct (lit ["-"%char] r1); auto.
    destruct K as (q & -> & K). discriminate.
Qed.

(** ** Strings *)
Lemma quoted_tok s t : quoted s t -> tok t.
Proof. intros (q & w & [->| ->] & _ & _ & _ & ->); known_tok. Qed.
Lemma p_quoted_ok q w s rest : is_ws q = false -> blank w -> ~ In q s -> (forall c r, s = c :: r -> ~ blank [c]) ->
  p_quoted q (q :: w ++ s ++ [q] ++ rest) = Some (s, rest).
Proof.
  intros Q W N B. unfold p_quoted. cbn [lit]. rewrite Ascii.eqb_refl, skip_blank by auto.
  assert (E : skip (s ++ [q] ++ rest) = s ++ [q] ++ rest).
  { destruct s as [|c s]; cbn; [rewrite Q; reflexivity|].
    destruct (is_ws c) eqn:C; auto. exfalso. apply (B c s eq_refl). constructor; [apply is_ws_spec; auto|constructor]. }
  rewrite E, span_app.
  - cbn [app skip]. rewrite Q. cbn [lit]. rewrite Ascii.eqb_refl. reflexivity.
  - apply Forall_forall. intros c Hc. destruct (Ascii.eqb_spec c q); auto. subst; contradiction.
  - cbn. rewrite Ascii.eqb_refl. reflexivity.
Qed.
Lemma p_string_ok s t rest : quoted s t -> p_string (t ++ rest) = Some (s, rest).
Proof.
  intros (q & w & Q & W & N & B & ->). unfold p_string. cbn [app]. rewrite <- !app_assoc.
  destruct Q as [->| ->].
  - rewrite p_quoted_ok by auto. reflexivity.
  - replace (p_quoted """" ("'"%char :: w ++ s ++ ["'"%char] ++ rest)) with (@None (str * str)) by reflexivity.
    rewrite p_quoted_ok by auto. reflexivity.
Qed.
Lemma quoted_head s t : quoted s t -> exists r, t = """"%char :: r \/ t = "'"%char :: r.
Proof. intros (q & w & [->| ->] & _ & _ & _ & ->); eexists; [left|right]; reflexivity. Qed.

(** ** References *)
Lemma p_dotted_none rest : match rest with c :: _ => c <> "."%char | [] => True end -> p_dotted rest = None.
Proof. destruct rest as [|c rest]; [reflexivity|]. intros H. unfold p_dotted. rewrite lit_head; cbn; auto. Qed.
Lemma p_dotted_ok i rest : identifier i -> match rest with c :: _ => ident_char c = false | [] => True end ->
  p_dotted (L "." ++ i ++ rest) = Some (L "." ++ i, rest).
Proof. intros I H. unfold p_dotted. rewrite lit_app, p_ident_ok' by auto. reflexivity. Qed.
Lemma p_reference_word w rest : identifier w -> apart w rest -> match rest with c :: _ => c <> "."%char | [] => True end ->
  p_reference (w ++ rest) = None.
Proof. intros I A H. unfold p_reference. rewrite p_ident_ok, p_dotted_none by auto. reflexivity. Qed.
Lemma p_reference_none c s : ident_start c = false -> p_reference (c :: s) = None.
Proof. intros H. unfold p_reference, p_ident. rewrite H. reflexivity. Qed.
Lemma p_ndigits_none n c s : is_digit c = false -> p_ndigits (S n) (c :: s) = None.
Proof. intros H. cbn. rewrite H. reflexivity. Qed.
Lemma p_datetime_none c s : is_digit c = false -> p_datetime (c :: s) = None.
Proof. intros H. unfold p_datetime. rewrite p_ndigits_none; auto. Qed.
Lemma p_currency_none c s : is_digit c = false -> c <> "-"%char -> p_currency (c :: s) = None.
Proof. intros. unfold p_currency. rewrite p_number_none; auto. Qed.

Lemma apart_suffix a t rest : apart (a ++ t) rest -> apart t rest.
Proof. intros A t' c d r -> E C. apply (A (a ++ t') c d r); auto. rewrite app_assoc. reflexivity. Qed.

(** ** Values *)
Fixpoint conv_items (l : list rvalue) : pres (list pvalue) :=
  match l with
  | [] => Ok []
  | v :: l' => pbind (conv_value v) (fun b => pbind (conv_items l') (fun bs => Ok (b :: bs)))
  end.
Lemma conv_list l : conv_value (RvList l) = pbind (conv_items l) (fun l => Ok (PList l)).
Proof. reflexivity. Qed.

Scheme value_tokens_mut := Minimality for value_tokens Sort Prop
with item_tokens_mut := Minimality for item_tokens Sort Prop.
Combined Scheme tokens_ind from value_tokens_mut, item_tokens_mut.

Lemma value_shape :
  (forall v ts, value_tokens v ts -> Forall tok ts /\ match ts with (c :: _) :: _ => c <> "="%char | _ => False end) /\
  (forall vs ts, item_tokens vs ts -> Forall tok ts /\ match ts with [] => True | t :: _ => t = L "," end).
Proof.
  apply tokens_ind; intros.
  - split; [repeat constructor; eapply quoted_tok; eauto|]. destruct (quoted_head _ _ H) as (r & [->| ->]); discriminate.
  - split; [repeat constructor; eapply number_tok; eauto|]. destruct (number_shape _ H) as (c & r & -> & [C| ->] & _); [|discriminate].
    intros ->. discriminate.
  - split; [repeat constructor; known_tok|discriminate].
  - split; [repeat constructor; known_tok|discriminate].
  - split.
    + repeat constructor; [eapply number_tok; eauto|]. destruct H1 as (Ln & F & _). destruct c as [|a c]; [discriminate|].
      exists a, c. split; auto. inversion F; subst. apply ident_not_ws, alpha_ident; auto.
    + destruct (number_shape _ H) as (x & r & -> & [C| ->] & _); [|discriminate]. intros ->. discriminate.
  - destruct (date_shape _ H) as (c & r & -> & C). split; [repeat constructor; exists c, r; split; auto; apply ident_not_ws, digit_ident; auto|].
    intros ->. discriminate.
  - destruct H as (d & h & m & Dd & _ & _ & ->). destruct (date_shape _ Dd) as (c & r & -> & C).
    split; [repeat constructor; eexists c, _; split; [reflexivity|]; apply ident_not_ws, digit_ident; auto|]. cbn. intros ->. discriminate.
  - destruct H as (d & h & m & Dd & _ & _ & ->). destruct (date_shape _ Dd) as (c & r & -> & C).
    split; [repeat constructor; eexists c, _; split; [reflexivity|]; apply ident_not_ws, digit_ident; auto|]. cbn. intros ->. discriminate.
  - destruct (identifier_head a H) as (c & r & -> & C).
    split; [repeat constructor; eexists c, _; split; [reflexivity|]; apply ident_not_ws, start_ident; auto|]. cbn. intros ->. discriminate.
  - destruct (identifier_head a H) as (c' & r & -> & C).
    split; [repeat constructor; eexists c', _; split; [reflexivity|]; apply ident_not_ws, start_ident; auto|]. cbn. intros ->. discriminate.
  - split; [|discriminate]. constructor; [known_tok|]. repeat constructor. eapply quoted_tok; eauto.
  - split; [|discriminate]. constructor; [known_tok|]. repeat constructor. eapply quoted_tok; eauto.
  - split; [|discriminate]. constructor; [known_tok|]. apply Forall_app. split; [apply H0|]. apply Forall_app.
    split; [apply H2|]. repeat constructor. known_tok.
  - split; auto.
  - split; auto. constructor; [known_tok|]. apply Forall_app. split; [apply H0|apply H2].
Qed.

Lemma word_ident (s : string) : identifier (L s) -> True. Proof. auto. Qed.
Lemma after_value_dot more rest : after_value more -> Forall tok more -> lay more rest ->
  match rest with c :: _ => c <> "."%char | [] => True end.
Proof. intros A T H. destruct rest; auto. apply (after_value_head more a rest); auto. Qed.

Lemma p_value_ok :
  (forall v ts, value_tokens v ts -> forall more text n, lay (ts ++ more) text -> after_value more -> Forall tok more ->
     length text < n -> exists rv rest, p_value n (skip text) = Some (rv, rest) /\ conv_value rv = Ok v /\
     lay more rest /\ length rest < length text) /\
  (forall vs ts, item_tokens vs ts -> forall more text n, lay (ts ++ L "]" :: more) text -> after_value more -> Forall tok more ->
     length text < n -> exists rvs rest, p_items n text = (rvs, rest) /\ conv_items rvs = Ok vs /\
     lay (L "]" :: more) rest /\ length rest <= length text).
Proof.
  apply tokens_ind.
  - (* string *) intros s t Q more text n H A T Ln. destruct n as [|n]; [lia|].
    apply lay_inv in H as (r & E & H & Ap & _ & Lr); [|eapply quoted_tok; eauto].
    exists (RvStr s), r. rewrite E. repeat split; auto. cbn [p_value].
    replace (p_string (t ++ r)) with (Some (s, r)) by (symmetry; apply p_string_ok; auto).
    destruct (quoted_head _ _ Q) as (q & [->| ->]); reflexivity.
  - (* number *) intros k t N P more text n H A T Ln. destruct n as [|n]; [lia|].
    apply lay_inv in H as (r & E & H & Ap & _ & Lr); [|apply number_tok; auto].
    exists (RvNum t), r. rewrite E.
    assert (NE : num_end r) by (eapply num_end_after; eauto).
    assert (C : p_currency (t ++ r) = None).
    { unfold p_currency. rewrite p_number_ok by auto. erewrite p_code_none; eauto. }
    assert (D : p_datetime (t ++ r) = None).
    { apply p_datetime_number; auto. intros r' ->. destruct (after_value_head more _ _ A T H). congruence. }
    repeat split; auto.
    + cbn [p_value]. rewrite C, D, p_number_ok by auto.
      destruct (number_shape t N) as (c & r' & -> & Hc & _).
      assert (S : ident_start c = false) by (destruct Hc as [Hc| ->]; [apply digit_not_alpha; auto|reflexivity]).
      cbn [app]. rewrite (p_reference_none c) by auto.
      assert (Q : forall w s, ident_start w = true \/ w = """"%char \/ w = "'"%char -> lit (w :: s) (c :: r' ++ r) = None).
      { intros w s W. apply lit_head. intros <-. destruct W as [W|[->| ->]]; [congruence| |]; destruct Hc as [Hc|Hc]; discriminate. }
      unfold p_prefixed, p_string, p_quoted. cbn [list_ascii_of_string].
      rewrite !Q by auto. reflexivity.
    + cbn. unfold pnumber. rewrite P. reflexivity.
  - (* true *) intros more text n H A T Ln. destruct n as [|n]; [lia|].
    apply lay_inv in H as (r & E & H & Ap & _ & Lr); [|known_tok].
    exists (RvBool true), r. rewrite E. repeat split; auto. cbn [p_value].
    rewrite p_reference_word; [reflexivity| |auto|eapply after_value_dot; eauto].
    eexists _, _. split; [reflexivity|]. split; [left; reflexivity|]. repeat constructor; left; reflexivity.
  - intros more text n H A T Ln. destruct n as [|n]; [lia|].
    apply lay_inv in H as (r & E & H & Ap & _ & Lr); [|known_tok].
    exists (RvBool false), r. rewrite E. repeat split; auto. cbn [p_value].
    rewrite p_reference_word; [reflexivity| |auto|eapply after_value_dot; eauto].
    eexists _, _. split; [reflexivity|]. split; [left; reflexivity|]. repeat constructor; left; reflexivity.
  - (* currency *) intros k c t N P C more text n H A T Ln. destruct n as [|n]; [lia|].
    cbn [app] in H. apply lay_inv in H as (r & E & H & Ap & _ & Lr); [|apply number_tok; auto].
    destruct C as (C3 & CF & CA & CO).
    destruct c as [|c1 [|c2 [|c3 [|]]]]; try discriminate.
    inversion CF as [|? ? A1 CF1]; subst. inversion CF1 as [|? ? A2 CF2]; subst. inversion CF2 as [|? ? A3 _]; subst.
    assert (Tc : tok [c1; c2; c3]) by (exists c1, [c2; c3]; split; auto; apply ident_not_ws, alpha_ident; auto).
    assert (NE : num_end r).
    { destruct r as [|x r]; cbn; auto. destruct (lay_head _ _ _ H) as [W|(q & qs & Eq)]; [constructor; auto| |].
      - split; [|intros ->; discriminate]. destruct (is_digit x) eqn:X; auto. apply digit_ident, ident_not_ws in X. congruence.
      - injection Eq as -> _ _. split; [apply alpha_not_digit; auto|]. intros ->. discriminate. }
    apply lay_inv in H as (r2 & E2 & H & _ & _ & Lr2); [|auto].
    exists (RvCur t [c1; c2; c3]), r2. rewrite E. cbn [p_value].
    replace (p_currency (t ++ r)) with (Some (t, [c1; c2; c3], r2)).
    + repeat split; auto; [|lia]. cbn. unfold pnumber. rewrite P. reflexivity.
    + symmetry. unfold p_currency. rewrite p_number_ok, E2 by auto.
      assert (PC : p_combinator ([c1; c2; c3] ++ r2) = None).
      { unfold p_combinator, orelse.
        destruct (lit_nocase (L "and") ([c1; c2; c3] ++ r2)) as [q|] eqn:Q.
        - apply lit_nocase_spec in Q as (w & Ew & Eq). exfalso. apply CA.
          assert (length w = 3) by (apply (f_equal (@length _)) in Ew; unfold lower in Ew; rewrite map_length in Ew; exact Ew).
          destruct w as [|? [|? [|? [|]]]]; try discriminate. cbn in Eq. injection Eq as <- <- <- _. exact Ew.
        - destruct (lit_nocase (L "or") ([c1; c2; c3] ++ r2)) as [q|] eqn:Q'; auto.
          apply lit_nocase_spec in Q' as (w & Ew & Eq). exfalso. apply CO.
          assert (length w = 2) by (apply (f_equal (@length _)) in Ew; unfold lower in Ew; rewrite map_length in Ew; exact Ew).
          destruct w as [|? [|? [|]]]; try discriminate. cbn in Eq. injection Eq as <- <- _. exact Ew. }
      unfold p_code. rewrite PC. cbn [app]. rewrite A1, A2, A3. reflexivity.
  - (* date *) intros s D more text n H A T Ln. destruct n as [|n]; [lia|].
    destruct (date_shape s D) as (c & q & Es & C).
    apply lay_inv in H as (r & E & H & Ap & _ & Lr); [|exists c, q; split; auto; apply ident_not_ws, digit_ident; auto].
    exists (RvDate s), r. rewrite E. repeat split; auto. cbn [p_value].
    rewrite p_currency_date, p_datetime_date by auto.
    replace (p_time r) with (@None (str * str)); [reflexivity|].
    symmetry. unfold p_time. destruct (lit (L " at ") r) as [r'|] eqn:Q; auto.
    apply lit_spec in Q. subst r. exfalso.
    assert (K : lay more (" "%char :: L "at " ++ r')) by exact H.
    apply lay_skip in K; auto. cbn in K. destruct more as [|t more]; [discriminate|]. destruct K as (x & K).
    cbn in A. destruct A as [->|[->|[->|[A|A]]]]; try discriminate.
    + destruct t as [|t1 [|t2 ?]]; try discriminate. cbn in K. injection K as <- <- _. discriminate.
    + destruct t as [|t1 [|t2 ?]]; try discriminate. cbn in K. injection K as <- <- _. discriminate.
  - (* time *) intros s D more text n H A T Ln. destruct n as [|n]; [lia|].
    assert (D' := D). destruct D' as (d & h & m & Dd & Dh & Dm & Es). destruct (date_shape d Dd) as (c & q & Ed & C).
    apply lay_inv in H as (r & E & H & Ap & Z & Lr);
      [|exists c, (q ++ L " at " ++ h ++ L ":" ++ m); split; [subst; auto|]; apply ident_not_ws, digit_ident; auto].
    exists (RvDate s), r. rewrite E. repeat split; auto. cbn [p_value].
    assert (Ec : p_currency (s ++ r) = None) by (rewrite Es, <- app_assoc; apply p_currency_date; auto).
    rewrite Ec, p_datetime_time by auto.
    replace (p_zone r) with (@None (str * str)); [reflexivity|].
    symmetry. unfold p_zone. destruct (lit (L " ") r) as [r'|] eqn:Q; auto. apply lit_spec in Q.
    destruct r' as [|x r']; auto. cbn. rewrite (Z D x r' Q). reflexivity.
  - (* time and zone *) intros s z D Nz Fz more text n H A T Ln. destruct n as [|n]; [lia|].
    assert (D' := D). destruct D' as (d & h & m & Dd & Dh & Dm & Es). destruct (date_shape d Dd) as (c & q & Ed & C).
    apply lay_inv in H as (r & E & H & Ap & Z & Lr);
      [|eexists c, _; split; [subst; reflexivity|]; apply ident_not_ws, digit_ident; auto].
    exists (RvDate (s ++ L " " ++ z)), r. rewrite E. repeat split; auto. cbn [p_value].
    rewrite <- app_assoc.
    assert (Ec : p_currency (s ++ (L " " ++ z) ++ r) = None) by (rewrite Es, <- app_assoc; apply p_currency_date; auto).
    rewrite Ec, p_datetime_time by auto.
    assert (W : match r with c :: _ => ident_char c = false | [] => True end).
    { apply (apart_word z); auto.
      - apply (apart_suffix (s ++ L " ")). rewrite <- app_assoc. auto.
      - eapply Forall_impl; [|exact Fz]. intros; apply ident_char_spec, alpha_ident; auto. }
    unfold p_zone. rewrite <- app_assoc, lit_app, span_app; auto.
    + destruct z; [congruence|reflexivity].
    + destruct r as [|x r]; auto. destruct (is_alpha x) eqn:X; auto. apply alpha_ident in X. congruence.
  - (* reference *) intros a b Ia Ib more text n H A T Ln. destruct n as [|n]; [lia|].
    destruct (identifier_head a Ia) as (c & q & Ea & C).
    apply lay_inv in H as (r & E & H & Ap & _ & Lr); [|eexists c, _; split; [subst a; reflexivity|apply ident_not_ws, start_ident; auto]].
    exists (RvRef (a ++ L "." ++ b)), r. rewrite E. repeat split; auto. cbn [p_value].
    replace (p_reference ((a ++ L "." ++ b) ++ r)) with (Some (a ++ L "." ++ b, r)).
    + subst a. cbn [app]. rewrite p_currency_none, p_datetime_none by (try apply start_not_digit; auto; intros ->; discriminate).
      reflexivity.
    + symmetry. unfold p_reference. rewrite <- !app_assoc, p_ident_ok' by (auto; reflexivity).
      rewrite p_dotted_ok; auto.
      * rewrite p_dotted_none; auto. eapply after_value_dot; eauto.
      * apply (apart_word b); [|destruct (identifier_head b Ib) as (? & ? & -> & _); discriminate|apply identifier_word; auto].
        apply (apart_suffix (a ++ L ".")). rewrite <- app_assoc. auto.
  - (* field reference *) intros a b f Ia Ib If more text n H A T Ln. destruct n as [|n]; [lia|].
    destruct (identifier_head a Ia) as (c & q & Ea & C).
    apply lay_inv in H as (r & E & H & Ap & _ & Lr); [|eexists c, _; split; [subst a; reflexivity|apply ident_not_ws, start_ident; auto]].
    exists (RvRef (a ++ L "." ++ b ++ L "." ++ f)), r. rewrite E. repeat split; auto. cbn [p_value].
    replace (p_reference ((a ++ L "." ++ b ++ L "." ++ f) ++ r)) with (Some (a ++ L "." ++ b ++ L "." ++ f, r)).
    + subst a. cbn [app]. rewrite p_currency_none, p_datetime_none by (try apply start_not_digit; auto; intros ->; discriminate).
      reflexivity.
    + symmetry. unfold p_reference. rewrite <- !app_assoc, p_ident_ok' by (auto; reflexivity).
      rewrite p_dotted_ok by (auto; reflexivity).
      rewrite p_dotted_ok; auto.
      * apply (apart_word f); [|destruct (identifier_head f If) as (? & ? & -> & _); discriminate|apply identifier_word; auto].
        apply (apart_suffix (a ++ L "." ++ b ++ L ".")). rewrite <- !app_assoc. auto.
  - (* path *) intros s t Q more text n H A T Ln. destruct n as [|n]; [lia|].
    cbn [app] in H. apply lay_inv in H as (r & E & H & Ap & _ & Lr); [|known_tok].
    pose proof H as H'. apply lay_inv in H as (r2 & E2 & H & _ & _ & Lr2); [|eapply quoted_tok; eauto].
    exists (RvPath s), r2. rewrite E. repeat split; auto; [|lia]. cbn [p_value].
    rewrite p_reference_word; auto.
    + unfold p_prefixed. rewrite lit_app, E2, (p_string_ok s) by auto. reflexivity.
    + eexists _, _. split; [reflexivity|]. split; [left; reflexivity|]. repeat constructor; left; reflexivity.
    + destruct r as [|x r]; auto. intros ->. destruct (lay_head _ _ _ H') as [W|(y & ys & Ey)]; [|discriminate|].
      * constructor; auto. eapply quoted_tok; eauto.
      * injection Ey as -> _. destruct (quoted_head _ _ Q) as (z & [Z|Z]); discriminate.
  - (* enum *) intros s t Q more text n H A T Ln. destruct n as [|n]; [lia|].
    cbn [app] in H. apply lay_inv in H as (r & E & H & Ap & _ & Lr); [|known_tok].
    pose proof H as H'. apply lay_inv in H as (r2 & E2 & H & _ & _ & Lr2); [|eapply quoted_tok; eauto].
    exists (RvEnum s), r2. rewrite E. repeat split; auto; [|lia]. cbn [p_value].
    rewrite p_reference_word; auto.
    + replace (p_prefixed (L "path") (L "enum" ++ r)) with (@None (str * str)) by reflexivity.
      unfold p_prefixed. rewrite lit_app, E2, (p_string_ok s) by auto. reflexivity.
    + eexists _, _. split; [reflexivity|]. split; [left; reflexivity|]. repeat constructor; left; reflexivity.
    + destruct r as [|x r]; auto. intros ->. destruct (lay_head _ _ _ H') as [W|(y & ys & Ey)]; [|discriminate|].
      * constructor; auto. eapply quoted_tok; eauto.
      * injection Ey as -> _. destruct (quoted_head _ _ Q) as (z & [Z|Z]); discriminate.
  - (* list *) intros v vs t ts Vv IHv Vs IHs more text n H A T Ln. destruct n as [|n]; [lia|].
    cbn [app] in H. apply lay_inv in H as (r & E & H & Ap & _ & Lr); [|known_tok].
    rewrite <- !app_assoc in H. cbn [app] in H.
    assert (Ts : Forall tok (ts ++ L "]" :: more)).
    { apply Forall_app. split; [apply (proj2 value_shape _ _ Vs)|]. constructor; auto. known_tok. }
    assert (As : after_value (ts ++ L "]" :: more)).
    { destruct (proj2 value_shape _ _ Vs) as [_ S]. destruct ts as [|x ts]; cbn; auto. }
    destruct (IHv _ _ n H As Ts) as (rv & r1 & P1 & C1 & L1 & Ln1); [lia|].
    destruct (IHs more r1 n L1 A T) as (rvs & r2 & P2 & C2 & L2 & Ln2); [lia|].
    apply lay_inv in L2 as (r3 & E3 & L3 & _ & _ & Ln3); [|known_tok].
    exists (RvList (rv :: rvs)), r3. rewrite E. repeat split; auto; [| |lia].
    + cbn [p_value]. rewrite lit_app, P1, P2, E3, lit_app. reflexivity.
    + rewrite conv_list. cbn [conv_items]. rewrite C1, C2. reflexivity.
  - intros more text n H A T Ln. destruct n as [|n]; [lia|]. cbn [app] in H.
    exists [], text. repeat split; auto. cbn [p_items].
    pose proof H as H'. apply lay_inv in H' as (r & E & _); [|known_tok]. rewrite E. reflexivity.
  - intros v vs t ts Vv IHv Vs IHs more text n H A T Ln. destruct n as [|n]; [lia|].
    cbn [app] in H. apply lay_inv in H as (r & E & H & Ap & _ & Lr); [|known_tok].
    rewrite <- !app_assoc in H. cbn [app] in H.
    assert (Ts : Forall tok (ts ++ L "]" :: more)).
    { apply Forall_app. split; [apply (proj2 value_shape _ _ Vs)|]. constructor; auto. known_tok. }
    assert (As : after_value (ts ++ L "]" :: more)).
    { destruct (proj2 value_shape _ _ Vs) as [_ S]. destruct ts as [|x ts]; cbn; auto. }
    destruct (IHv _ _ n H As Ts) as (rv & r1 & P1 & C1 & L1 & Ln1); [lia|].
    destruct (IHs more r1 n L1 A T) as (rvs & r2 & P2 & C2 & L2 & Ln2); [lia|].
    exists (rv :: rvs), r2. repeat split; auto; [| |lia].
    + cbn [p_items]. rewrite E, lit_app, P1, P2. reflexivity.
    + cbn [conv_items]. rewrite C1, C2. reflexivity.
Qed.

(** ** Conditions *)
Definition after_op (more : list str) : Prop := match more with [] => True | t :: _ => t = L "|" end.
Lemma after_op_value more : after_op more -> after_value more.
Proof. destruct more; cbn; auto. Qed.
Lemma after_op_skip more text : after_op more -> Forall tok more -> lay more text ->
  skip text = [] \/ exists r, skip text = "|"%char :: r.
Proof.
  intros A T H. apply lay_skip in H; auto. destruct more as [|t more]; auto. cbn in A. subst t.
  destruct H as (r & ->). right. exists r. reflexivity.
Qed.
Lemma condition_toks c ts : condition_tokens c ts -> Forall tok ts.
Proof.
  intros (f & v & F & V & ->). apply Forall_app. split; [apply (field_toks _ _ F)|]. constructor; [apply operator_tok|].
  apply (proj1 value_shape _ _ V).
Qed.
Lemma p_condition_ok c ts more text n : condition_tokens c ts -> lay (ts ++ more) text -> after_value more ->
  Forall tok more -> length text < n ->
  exists rc rest, p_condition n (skip text) = Some (rc, rest) /\ conv_condition rc = Ok c /\ lay more rest /\
  length rest < length text.
Proof.
  intros (f & v & F & V & ->) H A T Ln. rewrite <- app_assoc in H.
  destruct (p_field_ok _ _ _ _ F H) as (r1 & P1 & H1 & L1). cbn [app] in H1.
  destruct (proj1 value_shape _ _ V) as [Tv Hv].
  destruct (p_operator_ok _ _ _ H1) as (r2 & P2 & H2 & L2).
  { apply Forall_app. auto. }
  { destruct v as [|[|x y] v]; try contradiction. cbn. auto. }
  destruct (proj1 p_value_ok _ _ V more r2 n H2 A T) as (rv & r3 & P3 & C3 & H3 & L3); [lia|].
  exists {| rc_field := pc_field c; rc_op := pc_op c; rc_value := rv |}, r3.
  unfold p_condition. rewrite P1, P2, P3. unfold conv_condition. cbn. rewrite C3. cbn.
  repeat split; auto; [destruct c; reflexivity|lia].
Qed.
Lemma combinator_after k t : combinator_token k t -> lower t = L "and" \/ lower t = L "or".
Proof. unfold combinator_token. destruct k; auto. Qed.
Lemma more_conditions_toks ks cs ts : more_conditions ks cs ts ->
  Forall tok ts /\ match ts with t :: _ => lower t = L "and" \/ lower t = L "or" | [] => True end.
Proof.
  induction 1 as [|k ks c cs t w ts C W M IH]; split; auto; [|eapply combinator_after; eauto].
  constructor; [eapply combinator_tok; eauto|].
  apply Forall_app. split; [eapply condition_toks; eauto|apply IH].
Qed.
Lemma more_conditions_after ks cs ts more : more_conditions ks cs ts -> after_op more -> after_value (ts ++ more).
Proof.
  intros M A. destruct (more_conditions_toks _ _ _ M) as [_ H]. destruct ts as [|t ts]; [apply after_op_value; auto|].
  cbn. tauto.
Qed.
Lemma conv_combinator_ok k t : combinator_token k t -> conv_combinator t = k.
Proof. unfold combinator_token, conv_combinator. intros ->. destruct k; reflexivity. Qed.
Lemma p_more_ok ks cs ts : more_conditions ks cs ts -> forall more text n m, lay (ts ++ more) text -> after_op more ->
  Forall tok more -> length text < n -> length text < m ->
  exists l rest, p_many (p_more_condition n) m text = (l, rest) /\ pcollect conv_condition (map snd l) = Ok cs /\
  map (fun p => conv_combinator (fst p)) l = ks /\ lay more rest /\ length rest <= length text.
Proof.
  induction 1 as [|k ks c cs t w ts C W M IH]; intros more text n m H A T Ln Lm; (destruct m as [|m]; [lia|]).
  - exists [], text. repeat split; auto. cbn [p_many].
    destruct (after_op_skip _ _ A T H) as [->|(r & ->)]; reflexivity.
  - cbn [app] in H. apply lay_inv in H as (r & E & H & _ & _ & Lr); [|eapply combinator_tok; eauto].
    rewrite <- app_assoc in H.
    destruct (p_condition_ok c t (ts ++ more) r n C H) as (rc & r1 & P1 & C1 & H1 & L1).
    { eapply more_conditions_after; eauto. }
    { apply Forall_app. split; auto. apply (more_conditions_toks _ _ _ M). }
    { lia. }
    destruct (IH more r1 n m H1 A T) as (l & r2 & P2 & C2 & K2 & H2 & L2); try lia.
    exists ((w, rc) :: l), r2. repeat split; auto; [| | |lia].
    + cbn [p_many]. unfold p_more_condition at 1. rewrite E, (p_combinator_ok k) by auto. rewrite P1, P2. reflexivity.
    + cbn. rewrite C1. cbn. rewrite C2. reflexivity.
    + cbn. rewrite K2, (conv_combinator_ok k) by auto. reflexivity.
Qed.
Lemma comb_eqb_spec a b : comb_eqb a b = true <-> b = a.
Proof. destruct a, b; cbn; split; congruence. Qed.
Lemma one_combinator_ok k ks : (forall k', In k' ks -> k' = k) -> (ks = [] -> k = CAnd) -> one_combinator ks = Ok k.
Proof.
  destruct ks as [|k0 ks]; intros H H0; cbn; [rewrite H0; auto|].
  rewrite (H k0) by (left; auto).
  replace (forallb (comb_eqb k) ks) with true; [reflexivity|].
  symmetry. apply forallb_forall. intros x Hx. apply comb_eqb_spec. apply H. right; auto.
Qed.
Lemma one_combinator_mixed ks : In CAnd ks -> In COr ks -> one_combinator ks = Err MixedCombinators.
Proof.
  intros A B. destruct ks as [|k ks]; [contradiction|]. cbn.
  destruct (forallb (comb_eqb k) ks) eqn:E; auto. exfalso. rewrite forallb_forall in E.
  assert (K : forall k', In k' (k :: ks) -> k' = k) by (intros k' [<-|H]; auto; apply comb_eqb_spec; auto).
  apply K in A. apply K in B. congruence.
Qed.
(** A where step with any combinators. *)
Lemma p_where_ok c cs ks t ts more text n : condition_tokens c t -> more_conditions ks cs ts ->
  lay (L "where" :: t ++ ts ++ more) text -> after_op more -> Forall tok more -> length text < n ->
  exists rc l rest, p_operation n (skip text) = Some (RoWhere rc l, rest) /\
  conv_operation (RoWhere rc l) = pbind (one_combinator ks) (fun k => Ok (PoWhere (c :: cs) k)) /\
  lay more rest /\ length rest < length text.
Proof.
  intros Hc Hm H A T Ln. apply lay_inv in H as (r & E & H1 & _ & _ & L1); [|known_tok].
  destruct (p_condition_ok c t (ts ++ more) r n Hc H1) as (rc & r1 & P1 & C1 & H2 & L2).
  { eapply more_conditions_after; eauto. }
  { apply Forall_app. split; auto. apply (more_conditions_toks _ _ _ Hm). }
  { lia. }
  destruct (p_more_ok _ _ _ Hm more r1 n n H2 A T) as (l & r2 & P2 & C2 & K2 & H3 & L3); try lia.
  exists rc, l, r2. rewrite E. unfold p_operation, p_where. rewrite lit_app, P1, P2. repeat split; auto; [|lia].
  cbn [conv_operation map snd pcollect]. rewrite C1. cbn [pbind]. rewrite C2. cbn [pbind]. rewrite K2. reflexivity.
Qed.

(** ** Operations *)
Lemma count_number n t : count_text n t -> number_text t.
Proof. intros [D _]. exists [], t. auto. Qed.
Lemma count_tok n t : count_text n t -> tok t.
Proof. intros H. eapply number_tok, count_number; eauto. Qed.
Lemma num_end_digits t rest : some_digits t -> apart t rest -> match rest with c :: _ => c <> "."%char | [] => True end -> num_end rest.
Proof.
  intros [N F] A H. destruct rest as [|c rest]; cbn; auto. split; auto.
  assert (W : match c :: rest with c :: _ => ident_char c = false | [] => True end).
  { apply (apart_word t (c :: rest)); auto. eapply Forall_impl; [|exact F]. intros; apply ident_char_spec, digit_ident; auto. }
  destruct (is_digit c) eqn:D; auto. apply digit_ident in D. congruence.
Qed.
Lemma first_char ts c rest : lay ts (c :: rest) -> Forall tok ts ->
  match ts with (d :: _) :: _ => d <> "."%char | _ => True end -> c <> "."%char.
Proof.
  intros H T N ->. destruct (lay_head _ _ _ H T) as [W|(r & ts' & ->)]; [discriminate|]. apply N. reflexivity.
Qed.
Lemma after_op_first more : after_op more -> match more with (d :: _) :: _ => d <> "."%char | _ => True end.
Proof. destruct more as [|t more]; cbn; auto. intros ->. discriminate. Qed.
Lemma p_count_ok n t more text : count_text n t -> lay (t :: more) text -> Forall tok more ->
  match more with (d :: _) :: _ => d <> "."%char | _ => True end ->
  exists rest, p_number (skip text) = Some (t, rest) /\ lay more rest /\ length rest < length text.
Proof.
  intros C H T N. apply lay_inv in H as (r & E & H & A & _ & Ln); [|eapply count_tok; eauto].
  exists r. rewrite E, p_number_ok; auto.
  - eapply count_number; eauto.
  - destruct C as [D _]. apply (num_end_digits t); auto. destruct r; auto. eapply first_char; eauto.
Qed.
Lemma lit_tok w more text : lay (L w :: more) text -> tok (L w) ->
  exists rest, skip text = L w ++ rest /\ lay more rest /\ length rest < length text.
Proof. intros H T. apply lay_inv in H as (r & E & H & _ & _ & Ln); eauto. Qed.
Lemma word_ident_head (w : string) : match L w with c :: _ => is_ws c = false | [] => False end -> tok (L w).
Proof. destruct (L w) as [|c r]; [contradiction|]. intros H. exists c, r. auto. Qed.

Lemma operation_toks o ts : operation_tokens o ts -> Forall tok ts.
Proof.
  destruct 1; repeat (first [apply Forall_nil | apply Forall_cons; [first [known_tok | eapply selector_tok; eassumption | eapply count_tok; eassumption]|]]);
    try (apply (field_toks _ _ H)).
  - apply Forall_app. split; [eapply condition_toks; eauto|]. apply (more_conditions_toks _ _ _ H0).
  - apply Forall_app. split; [apply (field_toks _ _ H)|]. repeat constructor. known_tok.
  - apply Forall_app. split; [apply (field_toks _ _ H)|]. repeat constructor. known_tok.
Qed.
Lemma p_opt_none {A} (p : str -> option (A * str)) s : p s = None -> p_opt p s = (None, s).
Proof. unfold p_opt. intros ->. reflexivity. Qed.
Lemma p_opt_some {A} (p : str -> option (A * str)) s a r : p s = Some (a, r) -> p_opt p s = (Some a, r).
Proof. unfold p_opt. intros ->. reflexivity. Qed.

Lemma lay_skip_self ts text : lay ts text -> Forall tok ts -> lay ts (skip text).
Proof.
  intros H T. destruct H as [w B|w t ts rest B A Z Ly].
  - rewrite skip_blank_nil by auto. constructor. constructor.
  - inversion T; subst. rewrite skip_blank, skip_tok by auto.
    apply (lay_token [] t ts rest); auto. constructor.
Qed.

Lemma p_operation_ok o ts more text n : operation_tokens o ts -> lay (ts ++ more) text -> after_op more ->
  Forall tok more -> length text < n ->
  exists ro rest, p_operation n (skip text) = Some (ro, rest) /\ conv_operation ro = Ok o /\ lay more rest /\
  length rest < length text.
Proof.
  intros O H A T Ln.
  destruct O as [c cs k ks t ts Hc Hm Hk H0| |s t Hs|k d Hd|k d s t Hd Hs|f t Hf|f t Hf|f t Hf|k t Hk]; cbn [app] in H;
    [|unfold p_operation..].
  - rewrite <- app_assoc in H. destruct (p_where_ok c cs ks t ts more text n Hc Hm H A T Ln) as (rc & l & r & P & C & H1 & L1).
    exists (RoWhere rc l), r. rewrite C, (one_combinator_ok k ks) by auto. auto.
  - apply lit_tok in H as (r & E & H1 & L1); [|known_tok].
    exists (RoRelated None None), (skip (skip r)). rewrite E. unfold p_related.
    replace (p_where n (L "related" ++ r)) with (@None (roperation * str)) by reflexivity.
    rewrite lit_app. rewrite !skip_idem. destruct (after_op_skip _ _ A T H1) as [Es|(q & Es)].
    + rewrite Es. repeat split; auto; [|cbn; lia]. rewrite <- Es. apply lay_skip_self; auto.
    + assert (Ls : lay more (skip r)) by (apply lay_skip_self; auto). pose proof (skip_length r).
      rewrite Es in *. split; [reflexivity|]. repeat split; auto. lia.
  - apply lit_tok in H as (r & E & H1 & L1); [|known_tok].
    assert (Ts : Forall tok (t :: more)) by (constructor; auto; eapply selector_tok; eauto).
    destruct (p_selector_ok s t more r Hs H1) as (r1 & P1 & H2 & L2).
    exists (RoRelated None (Some s)), r1. rewrite E. unfold p_related.
    replace (p_where n (L "related" ++ r)) with (@None (roperation * str)) by reflexivity.
    rewrite lit_app. rewrite p_opt_none.
    + rewrite skip_idem, (p_opt_some _ _ _ _ P1). repeat split; auto. lia.
    + apply lay_skip in H1 as (q & ->); auto. unfold p_degree.
      destruct s as [|name]; cbn in Hs; [subst t; reflexivity|]. destruct Hs as [I ->].
      destruct (identifier_head name I) as (c & x & -> & C). cbn [app]. rewrite lit_head; auto. cbn. intros <-. discriminate.
  - apply lit_tok in H as (r & E & H1 & L1); [|known_tok].
    apply lit_tok in H1 as (r1 & E1 & H1 & L2); [|known_tok].
    destruct (p_count_ok k d _ r1 Hd H1) as (r2 & P2 & H2 & L3); [constructor; auto; known_tok|discriminate|].
    apply lit_tok in H2 as (r3 & E3 & H3 & L4); [|known_tok].
    exists (RoRelated (Some d) None), (skip r3). rewrite E. unfold p_related.
    replace (p_where n (L "related" ++ r)) with (@None (roperation * str)) by reflexivity.
    rewrite lit_app.
    rewrite (p_opt_some p_degree (skip r) d r3) by (unfold p_degree; rewrite E1, lit_app, P2, E3, lit_app; reflexivity).
    cbn [conv_operation]. destruct Hd as [_ Hd]. unfold pnumber. rewrite Hd.
    assert (Ls : lay more (skip r3)) by (apply lay_skip_self; auto).
    rewrite p_opt_none.
    + repeat split; auto. pose proof (skip_length r3). lia.
    + destruct (after_op_skip _ _ A T H3) as [->|(q & ->)]; reflexivity.
  - apply lit_tok in H as (r & E & H1 & L1); [|known_tok].
    apply lit_tok in H1 as (r1 & E1 & H1 & L2); [|known_tok].
    assert (Ts : Forall tok (t :: more)) by (constructor; auto; eapply selector_tok; eauto).
    destruct (p_count_ok k d _ r1 Hd H1) as (r2 & P2 & H2 & L3); [constructor; auto; known_tok|discriminate|].
    apply lit_tok in H2 as (r3 & E3 & H3 & L4); [|known_tok].
    destruct (p_selector_ok s t more r3 Hs H3) as (r4 & P4 & H4 & L5).
    exists (RoRelated (Some d) (Some s)), r4. rewrite E. unfold p_related.
    replace (p_where n (L "related" ++ r)) with (@None (roperation * str)) by reflexivity.
    rewrite lit_app.
    rewrite (p_opt_some p_degree (skip r) d r3) by (unfold p_degree; rewrite E1, lit_app, P2, E3, lit_app; reflexivity).
    rewrite (p_opt_some _ _ _ _ P4).
    cbn [conv_operation]. destruct Hd as [_ Hd]. unfold pnumber. rewrite Hd. repeat split; auto. lia.
  - apply lit_tok in H as (r & E & H1 & L1); [|known_tok].
    destruct (p_field_ok f t more r Hf H1) as (r1 & P1 & H2 & L2).
    exists (RoOrder f None), (skip r1). rewrite E. unfold p_order.
    replace (p_where n (L "order" ++ r)) with (@None (roperation * str)) by reflexivity.
    replace (p_related (L "order" ++ r)) with (@None (roperation * str)) by reflexivity.
    rewrite lit_app, P1.
    assert (Ls : lay more (skip r1)) by (apply lay_skip_self; auto).
    rewrite p_opt_none.
    + repeat split; auto. pose proof (skip_length r1). lia.
    + destruct (after_op_skip _ _ A T H2) as [->|(q & ->)]; reflexivity.
  - apply lit_tok in H as (r & E & H1 & L1); [|known_tok]. rewrite <- app_assoc in H1.
    destruct (p_field_ok f t _ r Hf H1) as (r1 & P1 & H2 & L2). cbn [app] in H2.
    apply lit_tok in H2 as (r2 & E2 & H2 & L3); [|known_tok].
    exists (RoOrder f (Some (L "asc"))), r2. rewrite E. unfold p_order.
    replace (p_where n (L "order" ++ r)) with (@None (roperation * str)) by reflexivity.
    replace (p_related (L "order" ++ r)) with (@None (roperation * str)) by reflexivity.
    rewrite lit_app, P1, E2. repeat split; auto. lia.
  - apply lit_tok in H as (r & E & H1 & L1); [|known_tok]. rewrite <- app_assoc in H1.
    destruct (p_field_ok f t _ r Hf H1) as (r1 & P1 & H2 & L2). cbn [app] in H2.
    apply lit_tok in H2 as (r2 & E2 & H2 & L3); [|known_tok].
    exists (RoOrder f (Some (L "desc"))), r2. rewrite E. unfold p_order.
    replace (p_where n (L "order" ++ r)) with (@None (roperation * str)) by reflexivity.
    replace (p_related (L "order" ++ r)) with (@None (roperation * str)) by reflexivity.
    rewrite lit_app, P1, E2. repeat split; auto. lia.
  - apply lit_tok in H as (r & E & H1 & L1); [|known_tok].
    destruct (p_count_ok k t more r Hk H1 T) as (r1 & P1 & H2 & L2); [apply after_op_first; auto|].
    exists (RoLimit t), r1. rewrite E. unfold p_limit.
    replace (p_where n (L "limit" ++ r)) with (@None (roperation * str)) by reflexivity.
    replace (p_related (L "limit" ++ r)) with (@None (roperation * str)) by reflexivity.
    replace (p_order (L "limit" ++ r)) with (@None (roperation * str)) by reflexivity.
    rewrite lit_app, P1. cbn [conv_operation]. destruct Hk as [_ Hk]. unfold pnumber. rewrite Hk.
    repeat split; auto. lia.
Qed.

Lemma aggregation_toks a ts : aggregation_tokens a ts -> Forall tok ts.
Proof.
  assert (M : forall fs ts, more_fields fs ts -> Forall tok ts).
  { induction 1; constructor; [known_tok|]. apply Forall_app. split; auto. apply (field_toks _ _ H). }
  destruct 1; constructor; try known_tok; try apply Forall_nil; try (apply (field_toks _ _ H)).
  apply Forall_app. split; [apply (field_toks _ _ H)|eauto].
Qed.
Lemma end_toks a ts : end_tokens a ts -> Forall tok ts /\ after_op ts.
Proof.
  destruct a as [a|]; unfold end_tokens.
  - intros (t & H & ->). split; [|reflexivity]. constructor; [known_tok|]. eapply aggregation_toks; eauto.
  - intros ->. split; [constructor|exact I].
Qed.
Lemma operations_toks os ts more : operations_tokens os ts -> Forall tok more -> after_op more ->
  Forall tok (ts ++ more) /\ after_op (ts ++ more).
Proof.
  induction 1 as [|o os t ts O Os IH]; intros T A; [split; auto|]. cbn [app]. split; [|reflexivity].
  constructor; [known_tok|]. rewrite <- app_assoc. apply Forall_app. split; [eapply operation_toks; eauto|apply IH; auto].
Qed.
(** What follows the operations is not another operation. *)
Definition not_operation (more : list str) : Prop :=
  forall text n, lay more text -> p_bar_operation n (skip text) = None.
Lemma end_not_operation a ts : end_tokens a ts -> not_operation ts.
Proof.
  destruct a as [a|]; unfold end_tokens.
  - intros (t & H & ->) text n Ly. apply lit_tok in Ly as (r & E & H1 & _); [|known_tok].
    unfold p_bar_operation. rewrite E, lit_app.
    assert (K : forall w ts', lay (L w :: ts') r -> tok (L w) ->
      (forall q, p_operation n (L w ++ q) = None) -> p_operation n (skip r) = None).
    { intros w ts' Lw Tw Q. apply lit_tok in Lw as (q & -> & _); auto. }
    destruct H; eapply K; try eassumption; try known_tok; intros q; reflexivity.
  - intros -> text n Ly. apply lay_skip in Ly; auto. rewrite Ly. reflexivity.
Qed.
Lemma p_ops_prefix os ts : operations_tokens os ts -> forall more text n m, lay (ts ++ more) text -> after_op more ->
  Forall tok more -> length text < n -> length text < m ->
  exists l r m', p_many (p_bar_operation n) m text = (let (l2, r2) := p_many (p_bar_operation n) m' r in (l ++ l2, r2)) /\
  pcollect conv_operation l = Ok os /\ lay more r /\ length r <= length text /\ length r < m'.
Proof.
  induction 1 as [|o os t ts O Os IH]; intros more text n m H A T Ln Lm; (destruct m as [|m]; [lia|]).
  - exists [], text, (S m). repeat split; auto. cbn [app]. destruct (p_many _ _ _); reflexivity.
  - cbn [app] in H. apply lit_tok in H as (r & E & H & Lr); [|known_tok]. rewrite <- app_assoc in H.
    destruct (operations_toks _ _ _ Os T A) as [T' A'].
    destruct (p_operation_ok o t (ts ++ more) r n O H A' T') as (ro & r1 & P1 & C1 & H1 & L1); [lia|].
    destruct (IH more r1 n m H1 A T) as (l & r2 & m' & P2 & C2 & H2 & L2 & L3); try lia.
    exists (ro :: l), r2, m'. repeat split; auto; [| |lia].
    + cbn [p_many]. unfold p_bar_operation at 1. rewrite E, lit_app, P1, P2.
      destruct (p_many (p_bar_operation n) m' r2); reflexivity.
    + cbn. rewrite C1. cbn. rewrite C2. reflexivity.
Qed.
Lemma p_ops_ok os ts more text n m : operations_tokens os ts -> lay (ts ++ more) text -> after_op more ->
  Forall tok more -> not_operation more -> length text < n -> length text < m ->
  exists l rest, p_many (p_bar_operation n) m text = (l, rest) /\ pcollect conv_operation l = Ok os /\
  lay more rest /\ length rest <= length text.
Proof.
  intros O H A T NO Ln Lm. destruct (p_ops_prefix _ _ O more text n m H A T Ln Lm) as (l & r & m' & P & C & H1 & L1 & L2).
  exists l, r. rewrite P. destruct m' as [|m']; [lia|]. cbn [p_many]. rewrite NO by auto. rewrite app_nil_r. auto.
Qed.

(** ** Aggregations *)
Lemma p_fields_ok fs ts : more_fields fs ts -> forall text m, lay ts text -> length text < m ->
  exists rest, p_many p_more_field m text = (fs, rest) /\ lay [] rest.
Proof.
  induction 1 as [|f fs t ts F M IH]; intros text m H Lm; (destruct m as [|m]; [lia|]).
  - exists text. split; auto. cbn [p_many]. apply lay_skip in H; auto. rewrite H. reflexivity.
  - apply lit_tok in H as (r & E & H & Lr); [|known_tok].
    destruct (p_field_ok f t ts r F H) as (r1 & P1 & H1 & L1).
    destruct (IH r1 m H1) as (r2 & P2 & H2); [lia|].
    exists r2. split; auto. cbn [p_many]. unfold p_more_field at 1. rewrite E, lit_app, P1, P2. reflexivity.
Qed.
Lemma p_aggregation_ok a ts text n : aggregation_tokens a ts -> lay ts text -> length text < n ->
  exists ra rest, p_aggregation n (skip text) = Some (ra, rest) /\ conv_aggregation ra = a /\ lay [] rest.
Proof.
  intros Ag H Ln. unfold p_aggregation.
  destruct Ag as [f fs t ts Hf Hm| |f t Hf|f t Hf|f t Hf|f t Hf];
    (apply lit_tok in H as (r & E & H & Lr); [|known_tok]); rewrite E.
  - destruct (p_field_ok f t ts r Hf H) as (r1 & P1 & H1 & L1).
    destruct (p_fields_ok fs ts Hm r1 n H1) as (r2 & P2 & H2); [lia|].
    exists (RaSelect f fs), r2. rewrite lit_app, P1, P2. auto.
  - exists (RaCount None), (skip r).
    replace (lit (L "select") (L "count" ++ r)) with (@None str) by reflexivity. rewrite lit_app.
    pose proof (lay_skip_self _ _ H (Forall_nil _)) as H'.
    apply lay_skip in H; auto. rewrite H in *. cbn. auto.
  - rewrite <- (app_nil_r t) in H. destruct (p_field_ok f t [] r Hf H) as (r1 & P1 & H1 & L1).
    exists (RaCount (Some f)), r1.
    replace (lit (L "select") (L "count" ++ r)) with (@None str) by reflexivity.
    rewrite lit_app, (p_opt_some _ _ _ _ P1). auto.
  - rewrite <- (app_nil_r t) in H. destruct (p_field_ok f t [] r Hf H) as (r1 & P1 & H1 & L1).
    exists (RaSum f), r1.
    replace (lit (L "select") (L "sum" ++ r)) with (@None str) by reflexivity.
    replace (lit (L "count") (L "sum" ++ r)) with (@None str) by reflexivity.
    rewrite lit_app, P1. auto.
  - rewrite <- (app_nil_r t) in H. destruct (p_field_ok f t [] r Hf H) as (r1 & P1 & H1 & L1).
    exists (RaAverage f), r1.
    replace (lit (L "select") (L "average" ++ r)) with (@None str) by reflexivity.
    replace (lit (L "count") (L "average" ++ r)) with (@None str) by reflexivity.
    replace (lit (L "sum") (L "average" ++ r)) with (@None str) by reflexivity.
    rewrite lit_app, P1. auto.
  - rewrite <- (app_nil_r t) in H. destruct (p_field_ok f t [] r Hf H) as (r1 & P1 & H1 & L1).
    exists (RaMedian f), r1.
    replace (lit (L "select") (L "median" ++ r)) with (@None str) by reflexivity.
    replace (lit (L "count") (L "median" ++ r)) with (@None str) by reflexivity.
    replace (lit (L "sum") (L "median" ++ r)) with (@None str) by reflexivity.
    replace (lit (L "average") (L "median" ++ r)) with (@None str) by reflexivity.
    rewrite lit_app, P1. auto.
Qed.

(** ** Queries *)
Lemma p_end_ok a ts text n : end_tokens a ts -> lay ts text -> length text < n ->
  exists ra r, p_opt (p_bar_aggregation n) (skip text) = (ra, r) /\ option_map conv_aggregation ra = a /\ skip r = [].
Proof.
  destruct a as [a|]; unfold end_tokens.
  - intros (t & Ht & ->) H Ln. apply lit_tok in H as (r4 & E4 & H4 & L4); [|known_tok].
    destruct (p_aggregation_ok a t r4 n Ht H4) as (ra & r5 & P5 & C5 & H5); [lia|].
    exists (Some ra), r5. split; [|split].
    + apply p_opt_some. unfold p_bar_aggregation. rewrite E4, lit_app, P5. reflexivity.
    + cbn. rewrite C5. reflexivity.
    + apply lay_skip in H5; auto.
  - intros -> H Ln. apply lay_skip in H; auto. exists None, (skip text). rewrite H. auto.
Qed.
Theorem spells_parses q text : spells q text -> parse_query text = Ok q.
Proof.
  intros (s & ops & agg & Hs & Ho & Ha & H). set (n := S (length text)).
  destruct (end_toks _ _ Ha) as [Ta Aa].
  apply lit_tok in H as (r & E & H & Lr); [|known_tok].
  destruct (p_selector_ok _ _ _ _ Hs H) as (r1 & P1 & H1 & L1).
  destruct (p_ops_ok _ _ agg r1 n n Ho H1 Aa Ta (end_not_operation _ _ Ha)) as (l & r2 & P2 & C2 & H2 & L2); try (unfold n; lia).
  destruct (p_end_ok _ _ r2 n Ha H2) as (ra & r3 & P3 & C3 & E3); [unfold n; lia|].
  unfold parse_query, pest_query. fold n. rewrite E, lit_app, P1, P2, P3, E3. cbn. rewrite C2. cbn. rewrite C3.
  destruct q; reflexivity.
Qed.

Lemma pcollect_app {A B} (f : A -> pres B) a b : pcollect f (a ++ b) =
  pbind (pcollect f a) (fun x => pbind (pcollect f b) (fun y => Ok (x ++ y))).
Proof.
  induction a as [|c a IH]; cbn; [destruct (pcollect f b); reflexivity|].
  destruct (f c); cbn; auto. rewrite IH. destruct (pcollect f a); cbn; auto. destruct (pcollect f b); reflexivity.
Qed.
(** "and" and "or" in one where step. *)
Theorem mixed_refused s os1 c cs ks os2 a ts ops1 tc tcs ops2 agg text :
  selector_token s ts -> operations_tokens os1 ops1 -> condition_tokens c tc -> more_conditions ks cs tcs ->
  operations_tokens os2 ops2 -> end_tokens a agg -> In CAnd ks -> In COr ks ->
  lay (L "from" :: ts :: ops1 ++ (L "|" :: L "where" :: tc ++ tcs) ++ ops2 ++ agg) text ->
  parse_query text = Err MixedCombinators.
Proof.
  intros Hs H1 Hc Hm H2 Ha KA KO H. set (n := S (length text)).
  destruct (end_toks _ _ Ha) as [Ta Aa]. destruct (operations_toks _ _ _ H2 Ta Aa) as [T2 A2].
  set (more := ops2 ++ agg) in *.
  assert (Tw : Forall tok ((L "|" :: L "where" :: tc ++ tcs) ++ more)).
  { cbn [app]. constructor; [known_tok|]. constructor; [known_tok|]. rewrite <- app_assoc. apply Forall_app.
    split; [eapply condition_toks; eauto|]. apply Forall_app. split; auto. apply (more_conditions_toks _ _ _ Hm). }
  apply lit_tok in H as (r & E & H & Lr); [|known_tok].
  destruct (p_selector_ok _ _ _ _ Hs H) as (r1 & P1 & H3 & L1).
  destruct (p_ops_prefix _ _ H1 _ r1 n n H3 eq_refl Tw) as (l & r2 & m' & P2 & C2 & H4 & L2 & L3); try (unfold n; lia).
  cbn [app] in H4. apply lit_tok in H4 as (r3 & E3 & H4 & L4); [|known_tok]. rewrite <- app_assoc in H4.
  destruct (p_where_ok c cs ks tc tcs more r3 n Hc Hm H4 A2 T2) as (rc & lw & r4 & P4 & C4 & H5 & L5); [unfold n; lia|].
  destruct m' as [|m']; [lia|].
  destruct (p_ops_ok _ _ agg r4 n m' H2 H5 Aa Ta (end_not_operation _ _ Ha)) as (l5 & r5 & P5 & C5 & H6 & L6); try (unfold n; lia).
  destruct (p_end_ok _ _ r5 n Ha H6) as (ra & r6 & P6 & C6 & E6); [unfold n; lia|].
  assert (PM : p_many (p_bar_operation n) n r1 = (l ++ RoWhere rc lw :: l5, r5)).
  { rewrite P2. cbn [p_many]. unfold p_bar_operation at 1. rewrite E3, lit_app, P4, P5. reflexivity. }
  unfold parse_query, pest_query. fold n. rewrite E, lit_app, P1, PM, P6, E6. cbn [rq_ops].
  rewrite pcollect_app, C2. cbn [pbind pcollect]. rewrite C4, one_combinator_mixed by auto. reflexivity.
Qed.

(** ** Meaning *)
Lemma field_meaning f : means_field f (to_field f).
Proof.
  destruct f as [n|n]; unfold means_field, to_field; [|reflexivity].
  destruct (str_eqb n (L "type")) eqn:E; [apply str_eqb_eq in E; auto|].
  destruct (str_eqb n (L "id")) eqn:E'; [apply str_eqb_eq in E'; auto|].
  right; right. repeat split; intros ->; discriminate.
Qed.
Lemma value_meaning : forall v, means_value v (to_value v).
Proof.
  fix IH 1. destruct v; cbn [to_value]; try constructor.
  - destruct (f_is_integral n) eqn:E.
    + destruct n as [s| | |s m e]; try discriminate; cbn [f_is_finite andb]; apply (mv_int _ E).
    + cbn [andb]. constructor. auto.
  - induction vs as [|v vs IHl]; cbn; constructor; auto.
Qed.
Lemma Forall2_map_fun {A B} (R : A -> B -> Prop) f l : (forall a, R a (f a)) -> Forall2 R l (map f l).
Proof. intros H. induction l; cbn; constructor; auto. Qed.
Theorem query_meaning q : means q (to_query q).
Proof.
  split; [|split].
  - destruct q as [[|n] ? ?]; reflexivity.
  - apply Forall2_map_fun. intros [cs k|d [[|n]|]|f d|n].
    + constructor. apply Forall2_map_fun. intros c. repeat split; [apply field_meaning|apply value_meaning].
    + destruct d; [apply (mo_related_any (Some n))|apply (mo_related_any None)].
    + destruct d as [d|]; [apply (mo_related_to (Some d))|apply (mo_related_to None)].
    + destruct d; [apply (mo_related (Some n))|apply (mo_related None)].
    + constructor. apply field_meaning.
    + constructor.
  - destruct q as [? ? [a|]]; cbn; auto. destruct a as [fs|[f|]|f|f|f]; cbn; constructor; try apply field_meaning.
    apply Forall2_map_fun. apply field_meaning.
Qed.

(** ** Tokens separated by one blank each *)
Lemma time_form_blank t : time_form t -> In " "%char t /\ exists c r, t = c :: r /\ is_digit c = true.
Proof.
  intros (d & h & m & D & _ & _ & ->). split.
  - apply in_or_app. right. left. reflexivity.
  - destruct (date_shape d D) as (c & r & -> & C). cbn. eauto.
Qed.
Lemma lay_spaced ts : (forall t, In t ts -> ~ time_form t) -> lay ts (join (L " ") ts).
Proof.
  intros H. induction ts as [|t ts IH]; [constructor; constructor|].
  destruct ts as [|t' ts].
  - cbn [join]. rewrite <- (app_nil_r t) at 2. apply (lay_token [] t [] []); try constructor; try (intros ? ? ? ? ? E; discriminate).
    + discriminate.
    + constructor.
  - assert (I : lay (t' :: ts) (join (L " ") (t' :: ts))) by (apply IH; intros; apply H; right; auto).
    change (join (L " ") (t :: t' :: ts)) with (t ++ L " " ++ join (L " ") (t' :: ts)).
    apply (lay_token [] t (t' :: ts)); [constructor| | |].
    + intros ? c d r _ E _ D. cbn in E. injection E as <- _. destruct D as [D|D]; discriminate.
    + intros T. exfalso. eapply H; [left; reflexivity|auto].
    + remember (join (L " ") (t' :: ts)) as text eqn:Et. clear Et IH H.
      inversion I as [|w t0 ts0 rest B A Z Ly]; subst.
      change (L " " ++ w ++ t' ++ rest) with ((" "%char :: w) ++ t' ++ rest). constructor; auto. constructor; auto.
Qed.
Lemma identifier_not_time t : identifier t -> ~ time_form t.
Proof.
  intros I T. apply time_form_blank in T as (_ & c & r & E & D).
  destruct (identifier_head t I) as (c' & r' & -> & S). injection E as -> _. apply start_not_digit in S. congruence.
Qed.
Lemma quoted_not_time s t : quoted s t -> ~ time_form t.
Proof.
  intros Q T. apply time_form_blank in T as (_ & c & r & -> & D).
  destruct (quoted_head _ _ Q) as (x & [E|E]); injection E as -> _; discriminate.
Qed.
Lemma number_chars t : number_text t -> forall c, In c t -> is_digit c = true \/ c = "-"%char \/ c = "."%char.
Proof.
  intros (sg & a & S & [_ F] & T) c H. rewrite Forall_forall in F.
  assert (K : In c (sg ++ a) -> is_digit c = true \/ c = "-"%char \/ c = "."%char).
  { intros X. apply in_app_or in X as [X|X]; auto. destruct S as [->| ->]; [contradiction|].
    destruct X as [<-|[]]. auto. }
  destruct T as [->|(b & [_ Fb] & ->)]; auto. rewrite Forall_forall in Fb.
  rewrite app_assoc in H. apply in_app_or in H as [X|X]; auto.
  apply in_app_or in X as [[<-|[]]|X]; auto.
Qed.
Lemma number_not_time t : number_text t -> ~ time_form t.
Proof.
  intros N T. apply time_form_blank in T as (H & _). apply (number_chars t N) in H as [H|[H|H]]; discriminate.
Qed.

(** Integer literals. *)
Lemma forallb_Forall {A} (p : A -> bool) l : forallb p l = true -> Forall (fun a => p a = true) l.
Proof. intros H. apply Forall_forall. apply forallb_forall. auto. Qed.
Lemma show_N_some n : some_digits (show_N n).
Proof. split; [apply show_N_nonnil|apply forallb_Forall, show_N_digits]. Qed.
Lemma show_Z_number z : number_text (show_Z z).
Proof.
  destruct z as [|p|p].
  - exists [], (show_N 0). repeat split; auto; apply show_N_some.
  - exists [], (show_N (N.pos p)). repeat split; auto; apply show_N_some.
  - exists (L "-"), (show_N (N.pos p)). repeat split; auto; apply show_N_some.
Qed.
Lemma split_digits s : forallb is_digit s = true -> split_once "."%char s = None.
Proof.
  induction s as [|c s IH]; cbn; auto. intros H. apply andb_true_iff in H as [C H].
  destruct (Ascii.eqb_spec c "."); [subst; discriminate|]. rewrite IH; auto.
Qed.
Lemma parse_f64_show z : parse_f64 (show_Z z) = Some (f_of_ratio (z <? 0)%Z (Z.abs z) 1).
Proof.
  assert (D : forall n, parse_f64 (show_N n) = Some (f_of_ratio false (Z.of_N n) 1)).
  { intros n. unfold parse_f64. pose proof (show_N_digits n) as F. pose proof (show_N_nonnil n) as NE.
    pose proof (parse_show_N n) as P. destruct (show_N n) as [|c s]; [congruence|].
    pose proof (split_digits _ F) as S. cbn in F. apply andb_true_iff in F as [C _].
    destruct c as [[] [] [] [] [] [] [] []]; try discriminate; rewrite S, P; reflexivity. }
  destruct z as [|p|p].
  - apply (D 0%N).
  - apply (D (N.pos p)).
  - cbn [show_Z]. unfold parse_f64.
    rewrite split_digits by apply show_N_digits. rewrite parse_show_N. reflexivity.
Qed.
Lemma int_literal z w : (Z.abs z <= 2 ^ 53)%Z ->
  means_value (PNum (f_of_ratio (z <? 0)%Z (Z.abs z) 1)) w -> w = FInt z.
Proof.
  intros H M. destruct (ratio_integer (z <? 0)%Z (Z.abs z)) as (A & B & C); [lia|].
  inversion M as [|n I|n I| | | | | | |]; subst; [|congruence]. f_equal.
  destruct (Z.ltb_spec z 0); destruct (f_of_ratio _ _ _); try discriminate; unfold f_to_i64 in C; lia.
Qed.

(** A checker for layouts, for examples. *)
Definition apart_check (t rest : str) : bool :=
  match rev t, rest with c :: _, d :: _ => negb (ident_char c && ident_char d) | _, _ => true end.
Definition zone_check (t rest : str) : bool :=
  match rest with
  | " "%char :: c :: _ => negb (is_alpha c) || negb (existsb (Ascii.eqb " ") t) ||
      match t with d :: _ => negb (is_digit d) | [] => true end ||
      match rev t with d :: _ => negb (is_digit d) | [] => true end
  | _ => true
  end.
Fixpoint lay_check (ts : list str) (text : str) : bool :=
  match ts with
  | [] => forallb is_ws text
  | t :: ts' =>
      match lit t (skip text) with
      | Some rest => apart_check t rest && zone_check t rest && lay_check ts' rest
      | None => false
      end
  end.
Lemma skip_split s : exists w, blank w /\ s = w ++ skip s.
Proof.
  induction s as [|c s (w & B & E)]; [exists []; split; [constructor|reflexivity]|]. cbn. destruct (is_ws c) eqn:W.
  - exists (c :: w). split; [constructor; auto; apply is_ws_spec; auto|]. cbn. congruence.
  - exists []. split; [constructor|reflexivity].
Qed.
Lemma lay_check_ok ts text : lay_check ts text = true -> lay ts text.
Proof.
  revert text. induction ts as [|t ts IH]; intros text H; cbn in H.
  - constructor. apply forallb_Forall in H. eapply Forall_impl; [|exact H]. intros c. apply is_ws_spec.
  - destruct (lit t (skip text)) as [rest|] eqn:E; [|discriminate]. apply lit_spec in E.
    apply andb_true_iff in H as [H H3]. apply andb_true_iff in H as [H1 H2].
    destruct (skip_split text) as (w & B & ->). rewrite E. constructor; auto.
    + intros t' c d r -> -> C D. unfold apart_check in H1. rewrite rev_app_distr in H1. cbn in H1.
      apply ident_char_spec in C, D. rewrite C, D in H1. discriminate.
    + intros T c r ->. unfold zone_check in H2. destruct (is_alpha c); auto. cbn [negb orb] in H2.
      destruct (time_form_blank t T) as [Hb (d & r' & Et & D)].
      assert (X : existsb (Ascii.eqb " ") t = true) by (apply existsb_exists; exists " "%char; auto).
      rewrite X in H2. cbn [negb orb] in H2. rewrite Et in H2 at 1. rewrite D in H2. cbn [negb orb] in H2.
      destruct T as (d0 & h & m & D0 & Dh & Dm & E0).
      destruct Dm as [Lm Fm]. destruct m as [|m1 [|m2 [|]]]; try discriminate.
      apply Forall_inv_tail, Forall_inv in Fm.
      rewrite E0 in H2. rewrite !rev_app_distr in H2. cbn in H2. rewrite Fm in H2. discriminate.
Qed.
