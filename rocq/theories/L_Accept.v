(** Accepted queries consist of their tokens. *)
From Coq Require Import Lia.
From Verif Require Import M_QParse S_QText L_Str L_QParse S_Accept.
Close Scope Z_scope.

Inductive took : list str -> str -> str -> Prop :=
| took_none w s : blank w -> took [] (w ++ s) s
| took_one w t ts s r : blank w -> took ts s r -> took (t :: ts) (w ++ t ++ s) r.
Lemma took_nil s : took [] s s.
Proof. apply (took_none [] s). constructor. Qed.
Lemma took_blank w ts s r : blank w -> took ts s r -> took ts (w ++ s) r.
Proof. intros W T. destruct T as [w' s W'|w' t ts s r W' T]; rewrite app_assoc; constructor; try exact T; apply Forall_app; auto. Qed.
Lemma took_app a b s r r' : took a s r -> took b r r' -> took (a ++ b) s r'.
Proof. intros A B. induction A as [w s W|w t ts s r W A IH]; [now apply took_blank|]. cbn [app]. constructor; auto. Qed.
Lemma took_skip ts s r : took ts (skip s) r -> took ts s r.
Proof. intros T. destruct (skip_split s) as (w & W & E). rewrite E. now apply took_blank. Qed.
Lemma skipped s : took [] s (skip s).
Proof. apply took_skip, took_nil. Qed.
Lemma took_tok t s r : s = t ++ r -> took [t] s r.
Proof. intros ->. change (t ++ r) with ([] ++ t ++ r). constructor; [constructor|apply took_nil]. Qed.
Lemma took_strung ts s r : took ts s r -> skip r = [] -> strung ts s.
Proof.
  intros T N. induction T as [w s W|w t ts s r W T IH]; [|constructor; auto]. destruct (skip_split s) as (w' & W' & E). rewrite N, app_nil_r in E. subst s. constructor. apply Forall_app. auto.
Qed.
Lemma took_first t s r : took [t] (skip s) r -> took [t] s r.
Proof. apply took_skip. Qed.

Lemma span_some p s a b : span p s = (a, b) -> s = a ++ b /\ Forall (fun c => p c = true) a /\ match b with c :: _ => p c = false | [] => True end.
Proof.
  revert a b. induction s as [|c s IH]; intros a b E; cbn [span] in E; [injection E as <- <-; auto|].
  destruct (p c) eqn:P.
  - destruct (span p s) as [a' b'] eqn:Sp. injection E as <- <-. destruct (IH a' b' eq_refl) as (-> & F & Q). auto.
  - injection E as <- <-. auto.
Qed.
Lemma some_pair {A B} (a c : A) (b d : B) : Some (a, b) = Some (c, d) -> a = c /\ b = d.
Proof. intros E. injection E. auto. Qed.
Lemma ident_some s t r : p_ident s = Some (t, r) -> s = t ++ r /\ identifier t.
Proof.
  unfold p_ident. destruct s as [|c s]; [discriminate|]. destruct (ident_start c) eqn:C; [|discriminate]. destruct (span ident_char s) as [a b] eqn:Sp. intros E. apply some_pair in E as [<- <-].
  apply span_some in Sp as (-> & F & _). split; [reflexivity|]. exists c, a. split; [reflexivity|]. split.
  - unfold ident_start in C. apply orb_true_iff in C as [C|C]; [now left|right; now apply Ascii.eqb_eq].
  - eapply Forall_impl; [|exact F]. intros x. apply ident_char_spec.
Qed.
Lemma digits_some s a r : p_digits s = Some (a, r) -> s = a ++ r /\ S_QText.some_digits a.
Proof.
  unfold p_digits. destruct (span is_digit s) as [[|c a'] b] eqn:Sp; [discriminate|]. intros E. apply some_pair in E as [<- <-]. apply span_some in Sp as (-> & F & _). split; [reflexivity|]. split; [discriminate|exact F].
Qed.
Lemma ndigits_some n : forall s a r, p_ndigits n s = Some (a, r) -> s = a ++ r /\ S_QText.digits n a.
Proof.
  induction n as [|n IH]; intros s a r E; cbn [p_ndigits] in E; [apply some_pair in E as [<- <-]; repeat split; constructor|].
  destruct s as [|c s]; [discriminate|]. destruct (is_digit c) eqn:D; [|discriminate]. destruct (p_ndigits n s) as [[a' r']|] eqn:P; [|discriminate]. apply some_pair in E as [<- <-].
  apply IH in P as (-> & L1 & F). split; [reflexivity|]. split; [cbn; now rewrite L1|now constructor].
Qed.
Lemma number_some s t r : p_number s = Some (t, r) -> s = t ++ r /\ number_text t.
Proof.
  unfold p_number. intros E.
  assert (X : exists sign s0, (match lit (L "-") s with Some r => (L "-", r) | None => ([], s) end) = (sign, s0) /\ s = sign ++ s0 /\ (sign = [] \/ sign = L "-")).
  { destruct (lit (L "-") s) as [r0|] eqn:Lt; [apply lit_spec in Lt; exists (L "-"), r0; auto|exists [], s; auto]. }
  destruct X as (sign & s0 & X & -> & Sg). rewrite X in E. destruct (p_digits s0) as [[a s1]|] eqn:D; [|discriminate]. apply digits_some in D as [-> D].
  assert (plain : s1 = r -> t = sign ++ a -> sign ++ a ++ s1 = t ++ r /\ number_text t).
  { intros -> ->. split; [now rewrite <- app_assoc|]. exists sign, a. auto. }
  destruct (lit (L ".") s1) as [r1|] eqn:Lt; [|apply some_pair in E as [<- <-]; now apply plain].
  destruct (p_digits r1) as [[b s2]|] eqn:D2; [|apply some_pair in E as [<- <-]; now apply plain]. apply some_pair in E as [<- <-]. apply lit_spec in Lt as ->. apply digits_some in D2 as [-> D2].
  split; [rewrite <- !app_assoc; reflexivity|]. exists sign, a. split; [exact Sg|]. split; [exact D|]. right. exists b. auto.
Qed.
Lemma combinator_some s t r : p_combinator s = Some (t, r) -> s = t ++ r /\ (lower t = L "and" \/ lower t = L "or").
Proof.
  unfold p_combinator, orelse. intros E. destruct (lit_nocase (L "and") s) as [r0|] eqn:Lt.
  - apply some_pair in E as [<- <-]. apply lit_nocase_spec in Lt as (w & W & ->). assert (N : length w = 3) by (apply (f_equal (@length ascii)) in W; unfold lower in W; rewrite !map_length in W; exact W).
    destruct w as [|? [|? [|? [|? ?]]]]; try discriminate N. split; [reflexivity|left; exact W].
  - destruct (lit_nocase (L "or") s) as [r0|] eqn:Lt2; [|discriminate]. apply some_pair in E as [<- <-]. apply lit_nocase_spec in Lt2 as (w & W & ->). assert (N : length w = 2) by (apply (f_equal (@length ascii)) in W; unfold lower in W; rewrite !map_length in W; exact W).
    destruct w as [|? [|? [|? ?]]]; try discriminate N. split; [reflexivity|right; exact W].
Qed.
Lemma code_some s c r : p_code s = Some (c, r) -> s = c ++ r /\ currency_text c.
Proof.
  unfold p_code. destruct (p_combinator s) as [x|] eqn:PC; [discriminate|]. destruct s as [|c1 [|c2 [|c3 s]]]; try discriminate. destruct (is_alpha c1 && is_alpha c2 && is_alpha c3) eqn:A; [|discriminate]. intros E. apply some_pair in E as [<- <-].
  apply andb_true_iff in A as [A A3]. apply andb_true_iff in A as [A1 A2]. split; [reflexivity|]. split; [reflexivity|]. split; [auto|].
  unfold p_combinator, orelse in PC. destruct (lit_nocase (L "and") (c1 :: c2 :: c3 :: s)) eqn:L1; [discriminate|]. destruct (lit_nocase (L "or") (c1 :: c2 :: c3 :: s)) eqn:L2; [discriminate|]. split; intros X.
  - rewrite (proj2 (lit_nocase_spec (L "and") (c1 :: c2 :: c3 :: s) s)) in L1; [discriminate|]. exists [c1; c2; c3]. auto.
  - rewrite (proj2 (lit_nocase_spec (L "or") (c1 :: c2 :: c3 :: s) (c3 :: s))) in L2; [discriminate|]. exists [c1; c2]. auto.
Qed.
Lemma zone_some s z r : p_zone s = Some (z, r) -> exists w, z = L " " ++ w /\ s = z ++ r /\ w <> [] /\ Forall (fun c => is_alpha c = true) w.
Proof.
  unfold p_zone. destruct (lit (L " ") s) as [r0|] eqn:Lt; [|discriminate]. apply lit_spec in Lt as ->. destruct (span is_alpha r0) as [[|c a] b] eqn:Sp; [discriminate|]. intros E. apply some_pair in E as [<- <-]. apply span_some in Sp as (-> & F & _).
  exists (c :: a). repeat split; auto. discriminate.
Qed.
Lemma datetime_some s t r : p_datetime s = Some (t, r) -> s = t ++ r /\ value_tokens (PDate t) [t].
Proof.
  unfold p_datetime. intros E. destruct (p_ndigits 4 s) as [[y r1]|] eqn:Y; [|discriminate]. apply ndigits_some in Y as [-> Y]. destruct (lit (L "-") r1) as [r2|] eqn:L1; [|discriminate]. apply lit_spec in L1 as ->.
  destruct (p_ndigits 2 r2) as [[m r3]|] eqn:M; [|discriminate]. apply ndigits_some in M as [-> M]. destruct (lit (L "-") r3) as [r4|] eqn:L2; [|discriminate]. apply lit_spec in L2 as ->.
  destruct (p_ndigits 2 r4) as [[d r5]|] eqn:D; [|discriminate]. apply ndigits_some in D as [-> D]. set (date := y ++ L "-" ++ m ++ L "-" ++ d) in *.
  assert (DF : date_form date) by (exists y, m, d; auto). assert (DT : y ++ L "-" ++ m ++ L "-" ++ d ++ r5 = date ++ r5) by (subst date; rewrite <- !app_assoc; reflexivity). rewrite DT. clearbody date. clear DT Y M D y m d.
  destruct (p_time r5) as [[t' r6]|] eqn:T; apply some_pair in E as [<- <-]; [|split; [reflexivity|now apply vt_date]].
  unfold p_time in T. destruct (lit (L " at ") r5) as [q0|] eqn:L3; [|discriminate]. apply lit_spec in L3 as ->. destruct (p_ndigits 2 q0) as [[h q1]|] eqn:H; [|discriminate]. apply ndigits_some in H as [-> H].
  destruct (lit (L ":") q1) as [q2|] eqn:L4; [|discriminate]. apply lit_spec in L4 as ->. destruct (p_ndigits 2 q2) as [[mi q3]|] eqn:MI; [|discriminate]. apply ndigits_some in MI as [-> MI].
  assert (TF : time_form (date ++ L " at " ++ h ++ L ":" ++ mi)) by (exists date, h, mi; auto).
  destruct (p_zone q3) as [[z q4]|] eqn:Z; apply some_pair in T as [<- <-].
  - apply zone_some in Z as (w & -> & -> & NE & F). rewrite <- !app_assoc. split; [reflexivity|]. pose proof (vt_zone _ w TF NE F) as V. rewrite <- !app_assoc in V. exact V.
  - rewrite <- !app_assoc. split; [reflexivity|]. now apply vt_time.
Qed.
Lemma dotted_some s t r : p_dotted s = Some (t, r) -> exists i, t = L "." ++ i /\ s = t ++ r /\ identifier i.
Proof.
  unfold p_dotted. destruct (lit (L ".") s) as [r0|] eqn:Lt; [|discriminate]. apply lit_spec in Lt as ->. destruct (p_ident r0) as [[i r1]|] eqn:P; [|discriminate]. intros E. apply some_pair in E as [<- <-]. apply ident_some in P as [-> P]. exists i. auto.
Qed.
Lemma reference_some s t r : p_reference s = Some (t, r) -> s = t ++ r /\ value_tokens (PRef t) [t].
Proof.
  unfold p_reference. destruct (p_ident s) as [[a r0]|] eqn:A; [|discriminate]. apply ident_some in A as [-> A]. destruct (p_dotted r0) as [[b r1]|] eqn:B; [|discriminate]. apply dotted_some in B as (b' & -> & -> & B).
  destruct (p_dotted r1) as [[c r2]|] eqn:C; intros E; apply some_pair in E as [<- <-].
  - apply dotted_some in C as (c' & -> & -> & C). rewrite <- !app_assoc. split; [reflexivity|]. now apply vt_fref.
  - rewrite <- !app_assoc. split; [reflexivity|]. now apply vt_ref.
Qed.
Lemma quoted_some q s v r : q = """"%char \/ q = "'"%char -> p_quoted q s = Some (v, r) -> exists t, s = t ++ r /\ quoted v t.
Proof.
  intros Q. unfold p_quoted. destruct (lit [q] s) as [r0|] eqn:Lt; [|discriminate]. apply lit_spec in Lt as ->. destruct (skip_split r0) as (w & W & E0). pose proof (skip_idem r0) as SI. remember (skip r0) as k eqn:Ek. clear Ek.
  destruct (span (fun c => negb (Ascii.eqb c q)) k) as [inner r1] eqn:Sp. pose proof (span_some _ _ _ _ Sp) as (Ek & F & N). destruct (lit [q] (skip r1)) as [r2|] eqn:L2; [|discriminate]. intros E. apply some_pair in E as [<- <-].
  assert (R1 : r1 = [q] ++ r2).
  { destruct r1 as [|c r1]; [discriminate|]. apply negb_false_iff, Ascii.eqb_eq in N. subst c. replace (skip (q :: r1)) with (q :: r1) in L2; [now apply lit_spec in L2|]. cbn [skip]. destruct Q as [-> | ->]; reflexivity. }
  exists (q :: w ++ inner ++ [q]). split; [rewrite E0, Ek, R1; cbn [app]; rewrite <- !app_assoc; reflexivity|]. exists q, w. split; [exact Q|]. split; [exact W|]. split; [|split; [|reflexivity]].
  - intros X. rewrite Forall_forall in F. apply F in X. rewrite Ascii.eqb_refl in X. discriminate.
  - intros c r E' X. rewrite Ek, E' in SI. inversion X as [|? ? Y _]. subst. apply is_ws_spec in Y. cbn [app skip] in SI. rewrite Y in SI. pose proof (skip_length (r ++ q :: r2)) as Ln. rewrite SI in Ln. cbn [length] in Ln. lia.
Qed.
Lemma string_some s v r : p_string s = Some (v, r) -> exists t, s = t ++ r /\ quoted v t.
Proof.
  unfold p_string, orelse. destruct (p_quoted """" s) as [[v' r']|] eqn:E.
  - intros X. apply some_pair in X as [-> ->]. apply quoted_some in E; auto.
  - intros X. apply quoted_some in X; auto.
Qed.
Lemma prefixed_some w s v r : p_prefixed w s = Some (v, r) -> exists t, took [w; t] s r /\ quoted v t.
Proof.
  unfold p_prefixed. destruct (lit w s) as [r0|] eqn:Lt; [|discriminate]. apply lit_spec in Lt as ->. intros X. apply string_some in X as (t & E & Q). exists t. split; [|exact Q].
  apply (took_app [w] [t] _ r0); [now apply took_tok|]. apply took_first. now apply took_tok.
Qed.
Lemma first_some A (l : list (str * A)) s a r : first_of l s = Some (a, r) -> exists w, In (w, a) l /\ s = w ++ r.
Proof.
  induction l as [|[w b] l IH]; [discriminate|]. cbn [first_of]. destruct (lit w s) as [r0|] eqn:Lt; intros E.
  - apply some_pair in E as [<- <-]. apply lit_spec in Lt as ->. exists w. split; [now left|reflexivity].
  - destruct (IH E) as (w' & I & Ew). exists w'. split; [now right|exact Ew].
Qed.

(** ** Values *)
Definition reads_as (s r : str) (v : rvalue) : Prop := exists ts, ts <> [] /\ took ts s r /\ forall p, conv_value v = Ok p -> value_tokens p ts.
Fixpoint conv_all (l : list rvalue) : pres (list pvalue) :=
  match l with [] => Ok [] | v :: l' => pbind (conv_value v) (fun b => pbind (conv_all l') (fun bs => Ok (b :: bs))) end.
Lemma conv_list vs : conv_value (RvList vs) = pbind (conv_all vs) (fun l => Ok (PList l)).
Proof. reflexivity. Qed.
Lemma one_token s r v t : s = t ++ r -> (forall p, conv_value v = Ok p -> value_tokens p [t]) -> reads_as s r v.
Proof. intros E H. exists [t]. split; [discriminate|]. split; [now apply took_tok|exact H]. Qed.
Lemma value_some n : (forall s v r, p_value n s = Some (v, r) -> reads_as s r v) /\
  (forall s vs r, p_items n s = (vs, r) -> exists ts, took ts s r /\ forall ps, conv_all vs = Ok ps -> item_tokens ps ts).
Proof.
  induction n as [|n [IHv IHi]].
  { split; [discriminate|]. intros s vs r E. cbn in E. injection E as <- <-. exists []. split; [apply took_nil|]. intros ps X. injection X as <-. constructor. }
  split.
  - intros s v r E. cbn [p_value] in E.
    destruct (p_currency s) as [[[a c] r0]|] eqn:P1.
    { apply some_pair in E as [<- <-]. unfold p_currency in P1. destruct (p_number s) as [[n0 q0]|] eqn:N; [|discriminate]. destruct (p_code (skip q0)) as [[c0 q1]|] eqn:C; [|discriminate].
      apply some_pair in P1 as [X <-]. injection X as <- <-. apply number_some in N as [-> N]. apply code_some in C as [C0 C]. exists [n0; c0]. split; [discriminate|]. split.
      - apply (took_app [n0] [c0] _ q0); [now apply took_tok|]. apply took_first. now apply took_tok.
      - intros p X. cbn [conv_value] in X. unfold pnumber in X. destruct (parse_f64 n0) as [g|] eqn:G; [|discriminate]. injection X as <-. now apply vt_cur. }
    unfold orelse, on in E. destruct (p_datetime s) as [[t r0]|] eqn:P2.
    { apply some_pair in E as [<- <-]. apply datetime_some in P2 as [E2 V]. apply (one_token _ _ _ t E2). intros p X. injection X as <-. exact V. }
    destruct (p_reference s) as [[t r0]|] eqn:P3.
    { apply some_pair in E as [<- <-]. apply reference_some in P3 as [E2 V]. apply (one_token _ _ _ t E2). intros p X. injection X as <-. exact V. }
    destruct (p_prefixed (L "path") s) as [[t r0]|] eqn:P4.
    { apply some_pair in E as [<- <-]. apply prefixed_some in P4 as (q & T & Q). exists [L "path"; q]. split; [discriminate|]. split; [exact T|]. intros p X. injection X as <-. now apply vt_path. }
    destruct (p_prefixed (L "enum") s) as [[t r0]|] eqn:P5.
    { apply some_pair in E as [<- <-]. apply prefixed_some in P5 as (q & T & Q). exists [L "enum"; q]. split; [discriminate|]. split; [exact T|]. intros p X. injection X as <-. now apply vt_enum. }
    destruct (p_string s) as [[t r0]|] eqn:P6.
    { apply some_pair in E as [<- <-]. apply string_some in P6 as (q & E2 & Q). apply (one_token _ _ _ q E2). intros p X. injection X as <-. now apply vt_str. }
    destruct (p_number s) as [[t r0]|] eqn:P7.
    { apply some_pair in E as [<- <-]. apply number_some in P7 as [E2 N]. apply (one_token _ _ _ t E2). intros p X. cbn [conv_value] in X. unfold pnumber in X. destruct (parse_f64 t) as [g|] eqn:G; [|discriminate]. injection X as <-. now apply vt_num. }
    destruct (p_boolean s) as [[b r0]|] eqn:P8.
    { apply some_pair in E as [<- <-]. unfold p_boolean in P8. apply first_some in P8 as (w & I & E2). apply (one_token _ _ _ w E2). intros p X. injection X as <-. destruct I as [I|[I|[]]]; injection I as <- <-; constructor. }
    clear P1 P2 P3 P4 P5 P6 P7 P8. destruct (lit (L "[") s) as [q0|] eqn:Lt; [|discriminate]. apply lit_spec in Lt as ->. destruct (p_value n (skip q0)) as [[v0 q1]|] eqn:P; [|discriminate].
    destruct (p_items n q1) as [vs q2] eqn:It. destruct (lit (L "]") (skip q2)) as [q3|] eqn:Lt; [|discriminate]. apply lit_spec in Lt. apply some_pair in E as [<- <-].
    destruct (IHv _ _ _ P) as (ts & N & T & V). destruct (IHi _ _ _ It) as (us & U & W). exists (L "[" :: ts ++ us ++ [L "]"]). split; [discriminate|]. split.
    + apply (took_app [L "["] (ts ++ us ++ [L "]"]) _ q0); [now apply took_tok|]. apply (took_app ts _ _ q1); [now apply took_skip|]. apply (took_app us _ _ q2); [exact U|]. apply took_first. now apply took_tok.
    + intros p X. rewrite conv_list in X. cbn [conv_all] in X. destruct (conv_value v0) as [p0|] eqn:C0; [|discriminate]. cbn [pbind] in X. destruct (conv_all vs) as [ps|] eqn:C1; [|discriminate]. injection X as <-. apply vt_list; auto.
  - intros s vs r E. cbn [p_items] in E. destruct (lit (L ",") (skip s)) as [q0|] eqn:Lt.
    + apply lit_spec in Lt. destruct (p_value n (skip q0)) as [[v0 q1]|] eqn:P.
      * destruct (p_items n q1) as [vs' q2] eqn:It. injection E as <- <-. destruct (IHv _ _ _ P) as (ts & N & T & V). destruct (IHi _ _ _ It) as (us & U & W). exists (L "," :: ts ++ us). split.
        -- apply (took_app [L ","] (ts ++ us) _ q0); [apply took_first; now apply took_tok|]. apply (took_app ts _ _ q1); [now apply took_skip|exact U].
        -- intros ps X. cbn [conv_all] in X. destruct (conv_value v0) as [p0|] eqn:C0; [|discriminate]. cbn [pbind] in X. destruct (conv_all vs') as [ps'|] eqn:C1; [|discriminate]. injection X as <-. apply it_cons; auto.
      * injection E as <- <-. exists []. split; [apply took_nil|]. intros ps X. injection X as <-. constructor.
    + injection E as <- <-. exists []. split; [apply took_nil|]. intros ps X. injection X as <-. constructor.
Qed.

(** ** The rest *)
Lemma field_some s f r : p_field s = Some (f, r) -> exists ts, ts <> [] /\ took ts s r /\ field_tokens f ts.
Proof.
  unfold p_field, orelse. destruct (lit (L "@") s) as [r0|] eqn:Lt.
  - apply lit_spec in Lt as ->. destruct (p_ident (skip r0)) as [[n r1]|] eqn:P.
    + intros E. apply some_pair in E as [<- <-]. apply ident_some in P as [P I]. exists [L "@"; n]. split; [discriminate|]. split; [|split; auto].
      apply (took_app [L "@"] [n] _ r0); [now apply took_tok|]. apply took_first. now apply took_tok.
    + discriminate.
  - destruct (p_ident s) as [[n r1]|] eqn:P; [|discriminate]. intros E. apply some_pair in E as [<- <-]. apply ident_some in P as [P I]. exists [n]. split; [discriminate|]. split; [now apply took_tok|split; auto].
Qed.
Lemma selector_some s f r : p_selector s = Some (f, r) -> exists t, took [t] s r /\ selector_token f t.
Proof.
  unfold p_selector, orelse. destruct (lit (L "*") s) as [r0|] eqn:Lt.
  - apply lit_spec in Lt. intros E. apply some_pair in E as [<- <-]. exists (L "*"). split; [now apply took_tok|reflexivity].
  - destruct (p_ident s) as [[n r1]|] eqn:P; [|discriminate]. intros E. apply some_pair in E as [<- <-]. apply ident_some in P as [P I]. exists n. split; [now apply took_tok|split; auto].
Qed.
Lemma condition_some n s c r : p_condition n s = Some (c, r) -> exists ts, ts <> [] /\ took ts s r /\ forall p, conv_condition c = Ok p -> condition_tokens p ts.
Proof.
  unfold p_condition. destruct (p_field s) as [[f r0]|] eqn:F; [|discriminate]. destruct (p_operator (skip r0)) as [[o r1]|] eqn:O; [|discriminate]. destruct (p_value n (skip r1)) as [[v r2]|] eqn:V; [|discriminate].
  intros E. apply some_pair in E as [<- <-]. apply field_some in F as (fs & N & T & F). unfold p_operator in O. apply first_some in O as (w & I & O). apply (value_some n) in V as (vs & NV & TV & V).
  assert (W : w = operator_text o) by (cbn in I; repeat (destruct I as [I|I]; [injection I as <- <-; reflexivity|]); destruct I).
  exists (fs ++ operator_text o :: vs). split; [destruct fs; discriminate|]. split.
  - apply (took_app fs _ _ r0); [exact T|]. apply (took_app [operator_text o] vs _ r1); [apply took_first; rewrite <- W; now apply took_tok|now apply took_skip].
  - intros p X. unfold conv_condition in X. cbn [rc_value rc_field rc_op] in X. destruct (conv_value v) as [pv|] eqn:C; [|discriminate]. injection X as <-. exists fs, vs. auto.
Qed.
Lemma many_some A (p : str -> option (A * str)) (P : A -> list str -> Prop) :
  (forall s a r, p s = Some (a, r) -> exists ts, ts <> [] /\ took ts s r /\ P a ts) ->
  forall n s l r, p_many p n s = (l, r) -> exists tss, Forall2 P l tss /\ took (concat tss) s r.
Proof.
  intros H. induction n as [|n IH]; intros s l r E; cbn [p_many] in E.
  - injection E as <- <-. exists []. split; [constructor|apply took_nil].
  - destruct (p (skip s)) as [[a r0]|] eqn:Pa.
    + destruct (p_many p n r0) as [l' r'] eqn:M. injection E as <- <-. apply H in Pa as (ts & N & T & Q). apply IH in M as (tss & F & T'). exists (ts :: tss). split; [now constructor|]. cbn [concat]. apply (took_app ts _ _ r0); [now apply took_skip|exact T'].
    + injection E as <- <-. exists []. split; [constructor|apply took_nil].
Qed.
Lemma where_some n s o r : p_where n s = Some (o, r) -> exists ts, ts <> [] /\ took ts s r /\ forall p, conv_operation o = Ok p -> operation_tokens p ts.
Proof.
  unfold p_where. destruct (lit (L "where") s) as [r0|] eqn:Lt; [|discriminate]. apply lit_spec in Lt. destruct (p_condition n (skip r0)) as [[c r1]|] eqn:C; [|discriminate]. destruct (p_many (p_more_condition n) n r1) as [l r2] eqn:M. intros E. apply some_pair in E as [<- <-].
  apply condition_some in C as (ts & N & T & C).
  apply (many_some _ _ (fun (wc : str * rcondition) ts => exists w cs, ts = w :: cs /\ (lower w = L "and" \/ lower w = L "or") /\ fst wc = w /\ forall p, conv_condition (snd wc) = Ok p -> condition_tokens p cs)) in M.
  - destruct M as (tss & F & T'). exists (L "where" :: ts ++ concat tss). split; [discriminate|]. split.
    + apply (took_app [L "where"] (ts ++ concat tss) _ r0); [now apply took_tok|]. apply (took_app ts _ _ r1); [now apply took_skip|exact T'].
    + intros p X. cbn [conv_operation] in X. cbn [map pcollect] in X. destruct (conv_condition c) as [pc|] eqn:Cc; [|discriminate]. cbn [pbind] in X. destruct (pcollect conv_condition (map snd l)) as [pcs|] eqn:Cs; [|discriminate]. cbn [pbind] in X.
      destruct (one_combinator (map (fun q => conv_combinator (fst q)) l)) as [k|] eqn:K; [|discriminate]. injection X as <-.
      apply (ot_where pc pcs k (map (fun q => conv_combinator (fst q)) l)).
      * now apply C.
      * clear - F Cs. revert pcs Cs. induction F as [|[w c] t l tss (w' & cs & -> & W & E & H) F IH]; intros pcs Cs; cbn in Cs; [injection Cs as <-; constructor|].
        destruct (conv_condition c) as [pc|] eqn:Cc; [|discriminate]. cbn [pbind] in Cs. destruct (pcollect conv_condition (map snd l)) as [pcs'|]; [|discriminate]. injection Cs as <-. cbn [fst snd map] in *. subst w'. cbn [concat app].
        apply mc_cons; [now apply H| |now apply IH]. unfold combinator_token, conv_combinator. destruct W as [-> | ->]; reflexivity.
      * unfold one_combinator in K. destruct (map (fun q => conv_combinator (fst q)) l) as [|k0 ks]; [contradiction|]. destruct (forallb (comb_eqb k0) ks) eqn:Fb; [|discriminate]. injection K as <-. intros k' [<-|I]; [reflexivity|]. rewrite forallb_forall in Fb. apply Fb in I. destruct k0, k'; try discriminate; reflexivity.
      * intros Nil. unfold one_combinator in K. rewrite Nil in K. now injection K as <-.
  - intros s' [w c'] r' P. unfold p_more_condition in P. destruct (p_combinator s') as [[w0 q0]|] eqn:W; [|discriminate]. destruct (p_condition n (skip q0)) as [[k0 q1]|] eqn:K; [|discriminate]. apply some_pair in P as [X <-]. injection X as <- <-.
    apply combinator_some in W as [W1 W2]. apply condition_some in K as (cs & N' & T' & K). exists (w0 :: cs). split; [discriminate|]. split; [|exists w0, cs; auto].
    apply (took_app [w0] cs _ q0); [now apply took_tok|now apply took_skip].
Qed.
Lemma digits_only s : forall acc n, digits_val acc s = Some n -> Forall (fun c => is_digit c = true) s.
Proof. induction s as [|c s IH]; intros acc n E; [constructor|]. cbn [digits_val] in E. destruct (is_digit c) eqn:D; [|discriminate]. constructor; [exact D|exact (IH _ _ E)]. Qed.
Lemma count_number t n : parse_usize t = Some n -> count_text n t.
Proof.
  intros U. split; [|exact U]. unfold parse_usize, parse_N in U. destruct t as [|c t]; [discriminate|]. split; [discriminate|]. destruct (digits_val 0 (c :: t)) as [m|] eqn:P; [|discriminate]. exact (digits_only _ _ _ P).
Qed.
Lemma opt_some A (p : str -> option (A * str)) s o r : p_opt p s = (o, r) -> match o with Some a => p s = Some (a, r) | None => r = s end.
Proof. unfold p_opt. destruct (p s) as [[a r0]|]; intros E; injection E as <- <-; reflexivity. Qed.
Lemma related_some s o r : p_related s = Some (o, r) -> exists ts, ts <> [] /\ took ts s r /\ forall p, conv_operation o = Ok p -> operation_tokens p ts.
Proof.
  unfold p_related. destruct (lit (L "related") s) as [r0|] eqn:Lt; [|discriminate]. apply lit_spec in Lt. destruct (p_opt p_degree (skip r0)) as [d r1] eqn:D. destruct (p_opt p_selector (skip r1)) as [t r2] eqn:Se. intros E. apply some_pair in E as [<- <-].
  apply opt_some in D, Se.
  assert (TD : exists ds, took ds r0 r1 /\ match d with Some n => ds = [L "("; n; L ")"] | None => ds = [] end).
  { destruct d as [n|]; [|exists []; subst r1; split; [apply skipped|reflexivity]]. unfold p_degree in D. destruct (lit (L "(") (skip r0)) as [q0|] eqn:L1; [|discriminate]. apply lit_spec in L1. destruct (p_number (skip q0)) as [[n' q1]|] eqn:N; [|discriminate]. apply number_some in N as [N _].
    destruct (lit (L ")") (skip q1)) as [q2|] eqn:L2; [|discriminate]. apply lit_spec in L2. apply some_pair in D as [<- <-]. exists [L "("; n'; L ")"]. split; [|reflexivity].
    apply (took_app [L "("] [n'; L ")"] _ q0); [apply took_first; now apply took_tok|]. apply (took_app [n'] [L ")"] _ q1); [apply took_first; now apply took_tok|]. apply took_first. now apply took_tok. }
  assert (TS : exists us, took us r1 r2 /\ match t with Some sel => exists tk, us = [tk] /\ selector_token sel tk | None => us = [] end).
  { destruct t as [sel|]; [|exists []; subst r2; split; [apply skipped|reflexivity]]. apply selector_some in Se as (tk & T & Q). exists [tk]. split; [now apply took_first|eauto]. }
  destruct TD as (ds & TD & Hd), TS as (us & TS & Hs). exists (L "related" :: ds ++ us). split; [discriminate|]. split.
  - apply (took_app [L "related"] (ds ++ us) _ r0); [now apply took_tok|]. exact (took_app ds us _ _ _ TD TS).
  - intros p X. cbn [conv_operation] in X. destruct d as [n|].
    + unfold pnumber in X. destruct (parse_usize n) as [k|] eqn:U; [|discriminate]. injection X as <-. apply count_number in U. subst ds. destruct t as [sel|].
      * destruct Hs as (tk & -> & Q). now apply ot_degree_to.
      * subst us. now apply ot_degree.
    + injection X as <-. subst ds. destruct t as [sel|]; [destruct Hs as (tk & -> & Q); now apply ot_related_to|]. subst us. apply ot_related.
Qed.
Lemma order_some s o r : p_order s = Some (o, r) -> exists ts, ts <> [] /\ took ts s r /\ forall p, conv_operation o = Ok p -> operation_tokens p ts.
Proof.
  unfold p_order. destruct (lit (L "order") s) as [r0|] eqn:Lt; [|discriminate]. apply lit_spec in Lt. destruct (p_field (skip r0)) as [[f r1]|] eqn:F; [|discriminate]. apply field_some in F as (fs & _ & T & F). destruct (p_opt p_direction (skip r1)) as [d r2] eqn:D. intros E. apply some_pair in E as [<- <-].
  apply opt_some in D. apply took_skip in T. destruct d as [w|].
  - unfold p_direction in D. apply first_some in D as (w' & I & D). exists (L "order" :: fs ++ [w']). split; [discriminate|]. split.
    + apply (took_app [L "order"] (fs ++ [w']) _ r0); [now apply took_tok|]. apply (took_app fs [w'] _ r1); [exact T|]. apply took_first. now apply took_tok.
    + intros p X. cbn [conv_operation] in X. destruct I as [I|[I|[]]]; injection I as <- <-; injection X as <-; [now apply ot_asc|now apply ot_desc].
  - exists (L "order" :: fs). split; [discriminate|]. split.
    + apply (took_app [L "order"] fs _ r0); [now apply took_tok|]. rewrite <- (app_nil_r fs). apply (took_app fs [] _ r1); [exact T|]. subst r2. apply skipped.
    + intros p X. injection X as <-. now apply ot_order.
Qed.
Lemma limit_some s o r : p_limit s = Some (o, r) -> exists ts, ts <> [] /\ took ts s r /\ forall p, conv_operation o = Ok p -> operation_tokens p ts.
Proof.
  unfold p_limit, on. destruct (lit (L "limit") s) as [r0|] eqn:Lt; [|discriminate]. apply lit_spec in Lt. destruct (p_number (skip r0)) as [[n r1]|] eqn:N; [|discriminate]. apply number_some in N as [N _]. intros E. apply some_pair in E as [<- <-].
  exists [L "limit"; n]. split; [discriminate|]. split.
  - apply (took_app [L "limit"] [n] _ r0); [now apply took_tok|]. apply took_first. now apply took_tok.
  - intros p X. cbn [conv_operation] in X. unfold pnumber in X. destruct (parse_usize n) as [k|] eqn:U; [|discriminate]. injection X as <-. apply ot_limit. now apply count_number.
Qed.
Lemma operation_some n s o r : p_bar_operation n s = Some (o, r) -> exists ts, ts <> [] /\ took ts s r /\ exists us, ts = L "|" :: us /\ forall p, conv_operation o = Ok p -> operation_tokens p us.
Proof.
  unfold p_bar_operation. destruct (lit (L "|") s) as [r0|] eqn:Lt; [|discriminate]. apply lit_spec in Lt. intros E.
  assert (X : exists ts, ts <> [] /\ took ts (skip r0) r /\ forall p, conv_operation o = Ok p -> operation_tokens p ts).
  { unfold p_operation, orelse in E. destruct (p_where n (skip r0)) as [[o' r']|] eqn:E1; [apply some_pair in E as [<- <-]; exact (where_some _ _ _ _ E1)|].
    destruct (p_related (skip r0)) as [[o' r']|] eqn:E2; [apply some_pair in E as [<- <-]; exact (related_some _ _ _ E2)|].
    destruct (p_order (skip r0)) as [[o' r']|] eqn:E3; [apply some_pair in E as [<- <-]; exact (order_some _ _ _ E3)|]. exact (limit_some _ _ _ E). }
  destruct X as (ts & _ & T & H). exists (L "|" :: ts). split; [discriminate|]. split; [|eauto]. apply (took_app [L "|"] ts _ r0); [now apply took_tok|now apply took_skip].
Qed.
Lemma aggregation_some n s a r : p_bar_aggregation n s = Some (a, r) -> exists ts, took ts s r /\ end_tokens (Some (conv_aggregation a)) ts.
Proof.
  unfold p_bar_aggregation. destruct (lit (L "|") s) as [r0|] eqn:Lt; [|discriminate]. apply lit_spec in Lt. intros E.
  assert (X : exists ts, took ts (skip r0) r /\ aggregation_tokens (conv_aggregation a) ts).
  { unfold p_aggregation, orelse, on in E. set (s1 := skip r0) in *. clearbody s1. clear - E.
    assert (W : forall w q f q1, lit w s1 = Some q -> p_field (skip q) = Some (f, q1) -> exists ts, took (w :: ts) s1 q1 /\ field_tokens f ts).
    { intros w q f q1 L1 F. apply lit_spec in L1. apply field_some in F as (fs & _ & T & F). exists fs. split; [|exact F]. apply (took_app [w] fs _ q); [now apply took_tok|now apply took_skip]. }
    match type of E with match ?X with _ => _ end = _ => destruct X as [[a1 z1]|] eqn:A1 end.
    { apply some_pair in E as [<- <-]. destruct (lit (L "select") s1) as [q|] eqn:L1; [|discriminate]. destruct (p_field (skip q)) as [[f q1]|] eqn:F; [|discriminate]. destruct (p_many p_more_field n q1) as [l q2] eqn:M. apply some_pair in A1 as [<- <-]. destruct (W _ _ _ _ L1 F) as (ts & T & Ft).
      apply (many_some _ _ (fun f ts => exists us, ts = L "," :: us /\ field_tokens f us)) in M.
      + destruct M as (tss & FF & T'). exists (L "select" :: ts ++ concat tss). split; [apply (took_app (L "select" :: ts) (concat tss) _ q1); assumption|]. apply at_select; [exact Ft|].
        clear - FF. induction FF as [|g t l tss (us & -> & Fg) FF IH]; [constructor|]. cbn [concat app]. now apply mf_cons.
      + intros s' g r' P. unfold p_more_field in P. destruct (lit (L ",") s') as [z|] eqn:L2; [|discriminate]. apply lit_spec in L2. apply field_some in P as (us & _ & T'' & Fg). exists (L "," :: us). split; [discriminate|]. split; [|eauto].
        apply (took_app [L ","] us _ z); [now apply took_tok|now apply took_skip]. }
    clear A1. match type of E with match ?X with _ => _ end = _ => destruct X as [[a1 z1]|] eqn:A1 end.
    { apply some_pair in E as [<- <-]. destruct (lit (L "count") s1) as [q|] eqn:L1; [|discriminate]. destruct (p_opt p_field (skip q)) as [f q1] eqn:F. apply some_pair in A1 as [<- <-]. apply opt_some in F. destruct f as [f|].
      - destruct (W _ _ _ _ L1 F) as (ts & T & Ft). exists (L "count" :: ts). split; [exact T|now apply at_count_of].
      - apply lit_spec in L1. exists [L "count"]. split; [|apply at_count]. apply (took_app [L "count"] [] _ q); [now apply took_tok|]. subst q1. apply skipped. }
    clear A1. match type of E with match ?X with _ => _ end = _ => destruct X as [[a1 z1]|] eqn:A1 end.
    { apply some_pair in E as [<- <-]. destruct (lit (L "sum") s1) as [q|] eqn:L1; [|discriminate]. destruct (p_field (skip q)) as [[f q1]|] eqn:F; [|discriminate]. apply some_pair in A1 as [<- <-]. destruct (W _ _ _ _ L1 F) as (ts & T & Ft). exists (L "sum" :: ts). split; [exact T|now apply at_sum]. }
    clear A1. match type of E with match ?X with _ => _ end = _ => destruct X as [[a1 z1]|] eqn:A1 end.
    { apply some_pair in E as [<- <-]. destruct (lit (L "average") s1) as [q|] eqn:L1; [|discriminate]. destruct (p_field (skip q)) as [[f q1]|] eqn:F; [|discriminate]. apply some_pair in A1 as [<- <-]. destruct (W _ _ _ _ L1 F) as (ts & T & Ft). exists (L "average" :: ts). split; [exact T|now apply at_average]. }
    destruct (lit (L "median") s1) as [q|] eqn:L1; [|discriminate]. destruct (p_field (skip q)) as [[f q1]|] eqn:F; [|discriminate]. apply some_pair in E as [<- <-]. destruct (W _ _ _ _ L1 F) as (ts & T & Ft). exists (L "median" :: ts). split; [exact T|now apply at_median]. }
  destruct X as (ts & T & H). exists (L "|" :: ts). split; [|exists ts; auto]. apply (took_app [L "|"] ts _ r0); [now apply took_tok|now apply took_skip].
Qed.

Theorem accepted q text : parse_query text = Ok q -> made_of q text.
Proof.
  unfold parse_query. destruct (pest_query text) as [rq|] eqn:P; [|discriminate]. intros E. destruct (pcollect conv_operation (rq_ops rq)) as [os|] eqn:C; [|discriminate]. injection E as <-.
  unfold pest_query in P. set (n := S (length text)) in *. clearbody n. destruct (lit (L "from") (skip text)) as [r0|] eqn:Lt; [|discriminate]. apply lit_spec in Lt. destruct (p_selector (skip r0)) as [[f r1]|] eqn:F; [|discriminate].
  destruct (p_many (p_bar_operation n) n r1) as [ops r2] eqn:M. destruct (p_opt (p_bar_aggregation n) (skip r2)) as [a r3] eqn:A. destruct (skip r3) as [|c0 r4] eqn:Sk; [|discriminate]. injection P as <-. cbn [rq_ops rq_from rq_agg] in *.
  apply selector_some in F as (t & T & F). apply took_first in T.
  apply (many_some _ _ (fun o ts => exists us, ts = L "|" :: us /\ forall p, conv_operation o = Ok p -> operation_tokens p us)) in M; [|exact (operation_some n)].
  destruct M as (tss & FF & TO). apply opt_some in A.
  assert (AG : exists ts, took ts r2 r3 /\ end_tokens (option_map conv_aggregation a) ts).
  { destruct a as [a|]; [|exists []; subst r3; split; [apply skipped|reflexivity]]. apply aggregation_some in A as (ts & TA & A). exists ts. split; [now apply took_skip|exact A]. }
  destruct AG as (ag & TA & AG). exists t, (concat tss), ag. cbn [pq_from pq_ops pq_agg]. split; [exact F|]. split; [|split; [exact AG|]].
  - clear - FF C. revert os C. induction FF as [|o ts l tss (us & -> & H) FF IH]; intros os C; cbn in C; [injection C as <-; constructor|].
    destruct (conv_operation o) as [p|] eqn:Co; [|discriminate]. cbn [pbind] in C. destruct (pcollect conv_operation l) as [ps|] eqn:Cl; [|discriminate]. injection C as <-. cbn [concat app]. apply os_cons; [now apply H|now apply IH].
  - apply (took_strung _ _ r3); [|exact Sk]. apply (took_app [L "from"] (t :: concat tss ++ ag) _ r0); [apply took_first; now apply took_tok|]. apply (took_app [t] (concat tss ++ ag) _ r1); [exact T|]. exact (took_app _ _ _ _ _ TO TA).
Qed.
