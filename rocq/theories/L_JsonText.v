(** What is read as JSON is JSON. *)
From Coq Require Import Lia.
From Verif Require Import M_Json S_JsonText L_Str L_Num.
Close Scope Z_scope.

Lemma skip_white s : exists w, white w /\ s = w ++ skip_ws s.
Proof.
  induction s as [|c s (w & W & E)]; [exists []; split; constructor|]. cbn [skip_ws]. destruct (is_ws c) eqn:C; [|exists []; split; [constructor|reflexivity]].
  exists (c :: w). split; [constructor; [|exact W]|cbn [app]; congruence].
  destruct c as [[] [] [] [] [] [] [] []]; try discriminate C; cbn; tauto.
Qed.
Lemma take_run_split p s a r : take_run p s = (a, r) -> s = a ++ r /\ forallb p a = true.
Proof.
  revert a r. induction s as [|c s IH]; intros a r H; cbn [take_run] in H; [injection H as <- <-; split; reflexivity|].
  destruct (p c) eqn:P; [|injection H as <- <-; split; reflexivity]. destruct (take_run p s) as [x y]. injection H as <- <-.
  destruct (IH _ _ eq_refl) as [-> F]. split; [reflexivity|]. cbn [forallb]. rewrite P. exact F.
Qed.
Lemma word_split w : forall s r, word w s = Some r -> s = w ++ r.
Proof.
  induction w as [|c w IH]; intros s r H; cbn [word] in H; [injection H as ->; reflexivity|]. destruct s as [|c' s]; [discriminate|].
  destruct (Ascii.eqb c c') eqn:E; [|discriminate]. apply Ascii.eqb_eq in E. subst c'. rewrite (IH _ _ H). reflexivity.
Qed.
Lemma hex_val_hex c n : hex_val c = Some n -> hex c n.
Proof.
  intros H. unfold hex. destruct c as [[] [] [] [] [] [] [] []]; vm_compute in H; try discriminate H; injection H as <-.
  all: first [exists 0; split; [cbn; auto|reflexivity]|exists 1; split; [cbn; auto; fail|reflexivity]|exists 2; split; [cbn; auto; fail|reflexivity]|exists 3; split; [cbn; auto; fail|reflexivity]
    |exists 4; split; [cbn; auto; fail|reflexivity]|exists 5; split; [cbn; auto; fail|reflexivity]|exists 6; split; [cbn; auto; fail|reflexivity]|exists 7; split; [cbn; auto; fail|reflexivity]
    |exists 8; split; [cbn; auto; fail|reflexivity]|exists 9; split; [cbn; auto; fail|reflexivity]|exists 10; split; [cbn; auto; fail|reflexivity]|exists 11; split; [cbn; auto; fail|reflexivity]
    |exists 12; split; [cbn; auto; fail|reflexivity]|exists 13; split; [cbn; auto; fail|reflexivity]|exists 14; split; [cbn; auto; fail|reflexivity]|exists 15; split; [cbn; auto; fail|reflexivity]].
Qed.
Lemma hex_small c n : hex c n -> (n < 16)%N.
Proof.
  intros (i & H & ->). assert (i < 16); [|lia]. assert (K : forall l : str, length l = 16 -> nth_error l i = Some c -> i < 16).
  { intros l <- E. apply nth_error_Some. congruence. }
  destruct H as [H|H]; (apply (fun e => K _ e H)); reflexivity.
Qed.
Lemma hex4_four a b c d n : hex4 a b c d = Some n -> four_hex [a; b; c; d] n /\ (n < 65536)%N.
Proof.
  unfold hex4. destruct (hex_val a) as [na|] eqn:A; [|discriminate]. destruct (hex_val b) as [nb|] eqn:B; [|discriminate]. destruct (hex_val c) as [nc|] eqn:C; [|discriminate].
  destruct (hex_val d) as [nd|] eqn:D; [|discriminate]. intros H. injection H as <-. apply hex_val_hex in A, B, C, D.
  pose proof (hex_small _ _ A). pose proof (hex_small _ _ B). pose proof (hex_small _ _ C). pose proof (hex_small _ _ D).
  split; [|lia]. exists a, b, c, d, na, nb, nc, nd. repeat (split; [first [assumption|reflexivity]|]). lia.
Qed.
Lemma utf8_of_in n : (n < 1114112)%N -> in_utf8 n (utf8_of n).
Proof.
  intros H. unfold utf8_of.
  assert (M : forall k, (k mod 64 < 64)%N) by (intros k; apply N.mod_lt; lia).
  destruct (N.ltb_spec n 128); [apply one_byte; assumption|]. destruct (N.ltb_spec n 2048).
  { apply two_bytes; [lia|apply M|]. pose proof (N.div_mod n 64 ltac:(lia)). lia. }
  destruct (N.ltb_spec n 65536).
  { apply three_bytes; [lia|apply M|apply M|]. pose proof (N.div_mod n 64 ltac:(lia)). pose proof (N.div_mod (n / 64) 64 ltac:(lia)).
    assert (E : (n / 4096 = n / 64 / 64)%N) by (rewrite N.div_div by lia; reflexivity). rewrite E. lia. }
  apply four_bytes; [lia|apply M|apply M|apply M|]. pose proof (N.div_mod n 64 ltac:(lia)). pose proof (N.div_mod (n / 64) 64 ltac:(lia)). pose proof (N.div_mod (n / 64 / 64) 64 ltac:(lia)).
  assert (E : (n / 4096 = n / 64 / 64)%N) by (rewrite N.div_div by lia; reflexivity).
  assert (F : (n / 262144 = n / 64 / 64 / 64)%N) by (rewrite !N.div_div by lia; reflexivity). rewrite E, F. lia.
Qed.
Lemma simple_escape_short e c : simple_escape e = Some c -> In (e, c) short_escapes.
Proof.
  unfold simple_escape, short_escapes. intros H.
  repeat match type of H with (if Ascii.eqb ?a ?b then _ else _) = _ => destruct (Ascii.eqb a b) eqn:?E; [apply Ascii.eqb_eq in E; subst a; injection H as <-; cbn; tauto|clear E] end. discriminate.
Qed.
Lemma prepend_some a r x y : prepend a r = Some (x, y) -> exists s, r = Some (s, y) /\ x = a ++ s.
Proof. destruct r as [[s z]|]; [|discriminate]. cbn. intros H. injection H as <- <-. eauto. Qed.
Lemma read_str_text k : forall s x r, read_str s = Some (x, r) -> length s <= k -> exists t, s = t ++ QT :: r /\ string_text t x.
Proof.
  induction k as [|k IH]; intros s x r H K; (destruct s as [|c s1]; [discriminate|]); [cbn in K; lia|]. cbn [length] in K. cbn [read_str] in H.
  destruct (Ascii.eqb c QT) eqn:Q.
  { apply Ascii.eqb_eq in Q. subst c. injection H as <- <-. exists []. split; [reflexivity|constructor]. }
  apply Ascii.eqb_neq in Q. destruct (Ascii.eqb c BSL) eqn:B.
  2: { apply Ascii.eqb_neq in B. destruct (N.ltb_spec (code c) 32); [discriminate|]. apply prepend_some in H as (s & H & ->).
       destruct (IH _ _ _ H ltac:(lia)) as (t & -> & T). exists (c :: t). split; [reflexivity|]. apply string_plain; assumption. }
  apply Ascii.eqb_eq in B. subst c. destruct s1 as [|e s2]; [discriminate|]. cbn [length] in K. destruct (Ascii.eqb e "u") eqn:U.
  2: { destruct (simple_escape e) as [c'|] eqn:E; [|discriminate]. apply prepend_some in H as (s & H & ->).
       destruct (IH _ _ _ H ltac:(lia)) as (t & -> & T). exists (BSL :: e :: t). split; [reflexivity|]. apply string_short; [exact (simple_escape_short _ _ E)|exact T]. }
  apply Ascii.eqb_eq in U. subst e. destruct s2 as [|a1 [|a2 [|a3 [|a4 s3]]]]; try discriminate. cbn [length] in K.
  destruct (hex4 a1 a2 a3 a4) as [n|] eqn:X; [|discriminate]. apply hex4_four in X as [X XL].
  destruct ((56320 <=? n) && (n <=? 57343))%N eqn:LO; [discriminate|]. destruct ((55296 <=? n) && (n <=? 56319))%N eqn:HI.
  - apply andb_true_iff in HI as [H1 H2]. apply N.leb_le in H1, H2.
    destruct s3 as [|x0 [|y0 [|b1 [|b2 [|b3 [|b4 s4]]]]]]; try discriminate. cbn [length] in K. destruct (Ascii.eqb x0 BSL && Ascii.eqb y0 "u") eqn:XY; [|discriminate].
    apply andb_true_iff in XY as [E1 E2]. apply Ascii.eqb_eq in E1, E2. subst x0 y0. destruct (hex4 b1 b2 b3 b4) as [m|] eqn:Y; [|discriminate]. apply hex4_four in Y as [Y YL].
    destruct ((56320 <=? m) && (m <=? 57343))%N eqn:MM; [|discriminate]. apply andb_true_iff in MM as [M1 M2]. apply N.leb_le in M1, M2.
    apply prepend_some in H as (s & H & ->). destruct (IH _ _ _ H ltac:(lia)) as (t & -> & T).
    exists (L "\u" ++ [a1; a2; a3; a4] ++ L "\u" ++ [b1; b2; b3; b4] ++ t). split; [reflexivity|].
    apply (string_pair _ (n - 55296) _ (m - 56320) (65536 + (n - 55296) * 1024 + (m - 56320))%N).
    + replace (55296 + (n - 55296))%N with n by lia. exact X.
    + lia.
    + replace (56320 + (m - 56320))%N with m by lia. exact Y.
    + lia.
    + reflexivity.
    + apply utf8_of_in. lia.
    + exact T.
  - apply prepend_some in H as (s & H & ->). destruct (IH _ _ _ H ltac:(lia)) as (t & -> & T).
    exists (L "\u" ++ [a1; a2; a3; a4] ++ t). split; [reflexivity|]. apply (string_code _ n); [exact X| |apply utf8_of_in; lia|exact T].
    apply andb_false_iff in LO, HI. rewrite !N.leb_gt in LO, HI. lia.
Qed.

(** Numbers. *)
Lemma no_leading_whole s : no_leading_zero s = true -> forallb is_digit s = true -> whole s.
Proof.
  intros Z F. destruct s as [|c s]; [discriminate|]. split; [split; [discriminate|exact F]|]. intros r E. injection E as -> ->. destruct r; [reflexivity|discriminate].
Qed.
Lemma read_fraction_text s x r : read_fraction s = Some (x, r) ->
  exists t, s = t ++ r /\ (t = [] /\ x = None \/ exists ds, digits ds /\ t = "."%char :: ds /\ x = Some ds).
Proof.
  destruct s as [|c s]; cbn [read_fraction]; [intros H; injection H as <- <-; exists []; auto|]. destruct (Ascii.eqb c ".") eqn:C.
  - apply Ascii.eqb_eq in C. subst c. destruct (take_run is_digit s) as [ds r'] eqn:T. apply take_run_split in T as [-> F]. destruct ds as [|d ds]; [discriminate|].
    intros H. injection H as <- <-. exists ("."%char :: d :: ds). split; [reflexivity|]. right. exists (d :: ds). split; [split; [discriminate|exact F]|auto].
  - intros H. injection H as <- <-. exists []. auto.
Qed.
Lemma read_exponent_text s x r : read_exponent s = Some (x, r) ->
  exists t, s = t ++ r /\ (t = [] /\ x = None \/
    (exists e g ds, (e = "e"%char \/ e = "E"%char) /\ (g = [] \/ g = L "+" \/ g = L "-") /\ digits ds /\ t = e :: g ++ ds) /\ x <> None).
Proof.
  destruct s as [|c s]; cbn [read_exponent]; [intros H; injection H as <- <-; exists []; auto|]. destruct (Ascii.eqb c "e" || Ascii.eqb c "E") eqn:C.
  2: { intros H. injection H as <- <-. exists []. auto. }
  assert (CE : c = "e"%char \/ c = "E"%char) by (apply orb_true_iff in C as [C|C]; apply Ascii.eqb_eq in C; auto). clear C.
  assert (G : forall (down : bool) g u, (g = [] \/ g = L "+" \/ g = L "-") -> s = g ++ u ->
    (let (ds, s3) := take_run is_digit u in match ds with [] => None | _ => Some (Some (down, ds), s3) end) = Some (x, r) ->
    exists t, c :: s = t ++ r /\ (t = [] /\ x = None \/
      (exists e g ds, (e = "e"%char \/ e = "E"%char) /\ (g = [] \/ g = L "+" \/ g = L "-") /\ digits ds /\ t = e :: g ++ ds) /\ x <> None)).
  { intros down g u GG -> H. destruct (take_run is_digit u) as [ds q] eqn:T. apply take_run_split in T as [-> F]. destruct ds as [|d ds]; [discriminate|]. injection H as <- <-.
    exists (c :: g ++ d :: ds). split; [cbn [app]; rewrite <- app_assoc; reflexivity|]. right. split; [|discriminate]. exists c, g, (d :: ds). split; [exact CE|]. split; [exact GG|]. split; [split; [discriminate|exact F]|reflexivity]. }
  destruct s as [|d s']; [discriminate|]. destruct (Ascii.eqb d "-") eqn:D1; [apply Ascii.eqb_eq in D1; subst d; apply (G true (L "-")); auto|].
  destruct (Ascii.eqb d "+") eqn:D2; [apply Ascii.eqb_eq in D2; subst d; apply (G false (L "+")); auto|]. apply (G false []); auto.
Qed.
Lemma digits_numeral s : digits s -> exists n, digits_val 0 s = Some n /\ numeral s (Z.of_N n).
Proof.
  intros [N F]. revert N F. induction s as [|c s IH] using rev_ind; intros N F; [congruence|]. rewrite forallb_app in F. apply andb_true_iff in F as [F C]. cbn [forallb] in C. rewrite andb_true_r in C.
  assert (CC : (48 <= code c)%N) by (unfold is_digit in C; apply andb_true_iff in C as [C _]; apply N.leb_le in C; exact C).
  assert (D : forall a, digits_val a [c] = Some (a * 10 + (code c - 48))%N) by (intros a; cbn [digits_val]; rewrite C; reflexivity).
  destruct s as [|d s].
  - exists (code c - 48)%N. split; [cbn [app]; rewrite D; f_equal; lia|]. replace (Z.of_N (code c - 48)) with (Z.of_N (code c) - 48)%Z by lia. apply numeral_one. exact C.
  - destruct (IH ltac:(discriminate) F) as (n & V & M). exists (n * 10 + (code c - 48))%N. split.
    + rewrite digits_val_app by exact F. rewrite V. apply D.
    + replace (Z.of_N (n * 10 + (code c - 48))) with (10 * Z.of_N n + (Z.of_N (code c) - 48))%Z by lia. apply numeral_next; assumption.
Qed.
Lemma accumulate_val s : forall acc n, accumulate acc s = (n, []) -> forallb is_digit s = true -> digits_val acc s = Some n.
Proof.
  induction s as [|c s IH]; intros acc n H F; cbn [accumulate digits_val forallb] in *; [injection H as ->; reflexivity|]. apply andb_true_iff in F as [C F]. rewrite C.
  destruct (acc * 10 + (code c - 48) <=? u64_max)%N; [exact (IH _ _ H F)|discriminate].
Qed.
(** What the parts of a number stand for. *)
Lemma number_of_text (neg : bool) ints fr ex v t1 t2 : number_of neg ints fr ex = Some v -> whole ints ->
  (t1 = [] /\ fr = None \/ exists ds, digits ds /\ t1 = "."%char :: ds /\ fr = Some ds) ->
  (t2 = [] /\ ex = None \/
    (exists e g ds, (e = "e"%char \/ e = "E"%char) /\ (g = [] \/ g = L "+" \/ g = L "-") /\ digits ds /\ t2 = e :: g ++ ds) /\ ex <> None) ->
  json_text ((if neg then L "-" else []) ++ ints ++ t1 ++ t2) v.
Proof.
  intros H W A B.
  assert (NT : number_text ((if neg then L "-" else []) ++ ints ++ t1 ++ t2)).
  { apply number_text_of; [destruct neg; auto|exact W| |].
    - destruct A as [[-> _]|(ds & D & -> & _)]; [left; reflexivity|right; eauto].
    - destruct B as [[-> _]|[(e & g & ds & E & G & D & ->) _]]; [left; reflexivity|right; exists e, g, ds; auto]. }
  assert (FL : (exists f, v = JvFloat f) -> json_text ((if neg then L "-" else []) ++ ints ++ t1 ++ t2) v) by (intros (f & ->); apply json_number; exact NT).
  assert (OM : forall o, option_map JvFloat o = Some v -> exists f, v = JvFloat f) by (intros [f|] E; [injection E as <-; eauto|discriminate]).
  unfold number_of in H. destruct (accumulate 0 ints) as [sig more] eqn:AC. destruct fr as [ds|], ex as [[down es]|].
  - apply FL. destruct (accumulate sig ds) as [sig' rest]. destruct (digits_val 0 es) as [k|]; [|discriminate]. destruct (i32_max <? k)%N; [|exact (OM _ H)].
    destruct (negb (sig' =? 0)%N && negb down); [discriminate|]. injection H as <-. eauto.
  - apply FL. destruct (accumulate sig ds) as [sig' rest]. exact (OM _ H).
  - apply FL. destruct (digits_val 0 es) as [k|]; [|discriminate]. destruct (i32_max <? k)%N; [|exact (OM _ H)].
    destruct (negb (sig =? 0)%N && negb down); [discriminate|]. injection H as <-. eauto.
  - destruct A as [[-> _]|(ds & _ & _ & X)]; [|discriminate]. destruct B as [[-> _]|[_ X]]; [|destruct X; reflexivity]. destruct more as [|c more]; [|exact (FL (OM _ H))].
    destruct W as [[N F] Z]. pose proof (accumulate_val _ _ _ AC F) as V. destruct (digits_numeral ints (conj N F)) as (n & V' & M). assert (n = sig) by congruence. subst n.
    rewrite !app_nil_r. rewrite !app_nil_r in FL. destruct neg.
    + destruct ((sig =? 0) || (9223372036854775808 <? sig))%N eqn:O; [apply FL; injection H as <-; eauto|]. injection H as <-. apply orb_false_iff in O as [O _]. apply N.eqb_neq in O.
      apply json_negative; [split; [split|]; assumption|exact M|lia].
    + injection H as <-. apply json_natural; [split; [split|]; assumption|exact M].
Qed.
Lemma read_number_text s v r : read_number number_of s = Some (v, r) -> exists t, s = t ++ r /\ json_text t v.
Proof.
  assert (G : forall (neg : bool) u, read_unsigned number_of neg u = Some (v, r) -> exists t, (if neg then L "-" else []) ++ u = t ++ r /\ json_text t v).
  { intros neg u H. unfold read_unsigned in H. destruct (take_run is_digit u) as [ints s1] eqn:T. apply take_run_split in T as [-> F].
    destruct (no_leading_zero ints) eqn:Z; [|discriminate]. destruct (read_fraction s1) as [[fr s2]|] eqn:R; [|discriminate]. destruct (read_exponent s2) as [[ex s3]|] eqn:X; [|discriminate].
    destruct (number_of neg ints fr ex) as [w|] eqn:V; [|discriminate]. cbn [option_map] in H. injection H as -> ->.
    apply read_fraction_text in R as (t1 & -> & A). apply read_exponent_text in X as (t2 & -> & B).
    exists ((if neg then L "-" else []) ++ ints ++ t1 ++ t2). split; [rewrite <- !app_assoc; reflexivity|].
    exact (number_of_text neg ints fr ex v t1 t2 V (no_leading_whole _ Z F) A B). }
  destruct s as [|c s]; cbn [read_number]; [discriminate|]. destruct (Ascii.eqb c "-") eqn:C; [|apply (G false)]. apply Ascii.eqb_eq in C. subst c. apply (G true).
Qed.

(** Values. *)
Definition reads (rv : str -> option (jv * str)) : Prop := forall s v r, rv s = Some (v, r) -> exists t, s = t ++ r /\ json_text t v.
Lemma blanks_after t v w : json_text t v -> white w -> json_text (t ++ w) v.
Proof. intros T W. apply (json_blanks [] t w v); [constructor|exact T|exact W]. Qed.
Lemma blanks_before w t v : white w -> json_text t v -> json_text (w ++ t) v.
Proof. intros W T. pose proof (json_blanks w t [] v W T ltac:(constructor)) as K. rewrite app_nil_r in K. exact K. Qed.
Lemma read_items_text rv : reads rv -> forall k s l r, read_items rv k s = Some (l, r) ->
  exists ts, ts <> [] /\ Forall2 json_text ts l /\ s = join (L ",") ts ++ L "]" ++ r.
Proof.
  intros RV. induction k as [|k IH]; intros s l r H; cbn [read_items] in H; [discriminate|]. destruct (rv s) as [[v s1]|] eqn:V; [|discriminate].
  apply RV in V as (t & -> & T). destruct (skip_white s1) as (w & W & E). destruct (skip_ws s1) as [|c s2]; [discriminate|]. pose proof (blanks_after _ _ _ T W) as TW. destruct (Ascii.eqb c ",") eqn:C.
  - apply Ascii.eqb_eq in C. subst c. destruct (read_items rv k s2) as [[l' s3]|] eqn:I; [|discriminate]. injection H as <- <-. apply IH in I as (ts & N & F & ->).
    exists ((t ++ w) :: ts). split; [discriminate|]. split; [constructor; assumption|]. destruct ts as [|u ts]; [congruence|]. cbn [join]. rewrite E, <- !app_assoc. reflexivity.
  - destruct (Ascii.eqb c "]") eqn:D; [|discriminate]. apply Ascii.eqb_eq in D. subst c. injection H as <- <-. exists [t ++ w]. split; [discriminate|]. split; [constructor; [exact TW|constructor]|].
    cbn [join]. rewrite E, <- app_assoc. reflexivity.
Qed.
Lemma member_after t kv w : member_text t kv -> white w -> member_text (t ++ w) kv.
Proof.
  intros M W. destruct M as [a k k' b t v A K B T]. pose proof (member_of a k k' b (t ++ w) v A K B (blanks_after _ _ _ T W)) as X.
  rewrite <- !app_assoc. exact X.
Qed.
Lemma read_members_text rv : reads rv -> forall k s l r, read_members rv k s = Some (l, r) ->
  exists ts, ts <> [] /\ Forall2 member_text ts l /\ s = join (L ",") ts ++ L "}" ++ r.
Proof.
  intros RV. induction k as [|k IH]; intros s l r H; cbn [read_members] in H; [discriminate|]. destruct (skip_white s) as (w0 & W0 & E0). destruct (skip_ws s) as [|q s0]; [discriminate|].
  destruct (Ascii.eqb q QT) eqn:Q; [|discriminate]. apply Ascii.eqb_eq in Q. subst q. destruct (read_str s0) as [[key s1]|] eqn:K; [|discriminate]. apply (fun H => read_str_text _ _ _ _ H (le_n _)) in K as (kt & -> & KT).
  destruct (skip_white s1) as (w1 & W1 & E1). destruct (skip_ws s1) as [|c s2]; [discriminate|]. destruct (Ascii.eqb c ":") eqn:C; [|discriminate]. apply Ascii.eqb_eq in C. subst c.
  destruct (rv s2) as [[v s3]|] eqn:V; [|discriminate]. apply RV in V as (t & -> & T). destruct (skip_white s3) as (w & W & E). destruct (skip_ws s3) as [|d s4]; [discriminate|].
  pose proof (member_after _ _ _ (member_of w0 kt key w1 t v W0 KT W1 T) W) as M. destruct (Ascii.eqb d ",") eqn:D.
  - apply Ascii.eqb_eq in D. subst d. destruct (read_members rv k s4) as [[l' s5]|] eqn:I; [|discriminate]. injection H as <- <-. apply IH in I as (ts & N & F & ->).
    eexists (_ :: ts). split; [discriminate|]. split; [constructor; [exact M|exact F]|]. destruct ts as [|u ts]; [congruence|]. cbn [join]. rewrite E0, E1, E, <- !app_assoc. cbn [app list_ascii_of_string]. unfold QT. rewrite <- ?app_assoc. reflexivity.
  - destruct (Ascii.eqb d "}") eqn:D'; [|discriminate]. apply Ascii.eqb_eq in D'. subst d. injection H as <- <-. eexists [_]. split; [discriminate|]. split; [constructor; [exact M|constructor]|].
    cbn [join]. rewrite E0, E1, E, <- !app_assoc. reflexivity.
Qed.
Lemma read_value_text d : reads (read_value number_of d).
Proof.
  assert (WD : forall x w (j : jv) s v r, option_map (fun r => (j, r)) (word w s) = Some (v, r) -> json_text (x :: w) j -> exists t, x :: s = t ++ r /\ json_text t v).
  { intros x w j s v r H J. destruct (word w s) as [y|] eqn:Y; [|discriminate]. apply word_split in Y as ->. cbn in H. injection H as <- <-. exists (x :: w). split; [reflexivity|exact J]. }
  induction d as [d IH] using (well_founded_induction lt_wf). intros s v r H. destruct (skip_white s) as (w0 & W0 & E0).
  assert (G : exists t, skip_ws s = t ++ r /\ json_text t v).
  2: { destruct G as (t & E & T). exists (w0 ++ t). split; [rewrite E0, E, <- app_assoc; reflexivity|apply blanks_before; assumption]. }
  clear E0. destruct d as [|d]; cbn [read_value] in H; (destruct (skip_ws s) as [|c s1]; [discriminate|]).
  all: destruct (Ascii.eqb c "n") eqn:C1; [apply Ascii.eqb_eq in C1; subst c; exact (WD _ _ _ _ _ _ H json_null)|].
  all: destruct (Ascii.eqb c "t") eqn:C2; [apply Ascii.eqb_eq in C2; subst c; exact (WD _ _ _ _ _ _ H json_true)|].
  all: destruct (Ascii.eqb c "f") eqn:C3; [apply Ascii.eqb_eq in C3; subst c; exact (WD _ _ _ _ _ _ H json_false)|].
  all: destruct (Ascii.eqb c QT) eqn:C4; [apply Ascii.eqb_eq in C4; subst c; destruct (read_str s1) as [[t r']|] eqn:R; [|discriminate]; injection H as <- <-;
    apply (fun H => read_str_text _ _ _ _ H (le_n _)) in R as (u & -> & U); exists (L """" ++ u ++ L """"); split; [cbn [app list_ascii_of_string]; rewrite <- app_assoc; reflexivity|apply json_string; exact U]|].
  all: destruct (Ascii.eqb c "[") eqn:C5; [try discriminate H|].
  1: destruct (Ascii.eqb c "{") eqn:C6; [discriminate H|exact (read_number_text _ _ _ H)].
  2: destruct (Ascii.eqb c "{") eqn:C6; [|exact (read_number_text _ _ _ H)].
  - apply Ascii.eqb_eq in C5. subst c. destruct (skip_white s1) as (w & W & E). destruct (skip_ws s1) as [|x q] eqn:SK; [discriminate|]. destruct (Ascii.eqb x "]") eqn:X.
    + apply Ascii.eqb_eq in X. subst x. injection H as <- <-. exists (L "[" ++ w ++ L "]"). split; [rewrite E, <- !app_assoc; reflexivity|apply json_no_items; exact W].
    + destruct (read_items (read_value number_of d) (length s1) s1) as [[l r']|] eqn:I; [|discriminate]. injection H as <- <-.
      apply (read_items_text _ (IH d ltac:(lia))) in I as (ts & N & F & ->). exists (L "[" ++ join (L ",") ts ++ L "]"). split; [rewrite <- !app_assoc; reflexivity|apply json_items; assumption].
  - apply Ascii.eqb_eq in C6. subst c. destruct (skip_white s1) as (w & W & E). destruct (skip_ws s1) as [|x q] eqn:SK; [discriminate|]. destruct (Ascii.eqb x "}") eqn:X.
    + apply Ascii.eqb_eq in X. subst x. injection H as <- <-. exists (L "{" ++ w ++ L "}"). split; [rewrite E, <- !app_assoc; reflexivity|apply json_no_members; exact W].
    + destruct (read_members (read_value number_of d) (length s1) s1) as [[l r']|] eqn:I; [|discriminate]. injection H as <- <-.
      apply (read_members_text _ (IH d ltac:(lia))) in I as (ts & N & F & ->). exists (L "{" ++ join (L ",") ts ++ L "}"). split; [rewrite <- !app_assoc; reflexivity|apply json_members; assumption].
Qed.
Lemma read_json_text s v : read_json s = Some v -> json_text s v.
Proof.
  unfold read_json. destruct (read_value number_of max_depth s) as [[u r]|] eqn:R; [|discriminate]. apply read_value_text in R as (t & -> & T).
  destruct (skip_white r) as (w & W & E). destruct (skip_ws r); [|discriminate]. intros H. injection H as <-. rewrite app_nil_r in E. rewrite E. apply blanks_after; assumption.
Qed.
