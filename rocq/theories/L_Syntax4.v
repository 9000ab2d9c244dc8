(** Generated text is text; what is kept. *)
From Verif Require Import M_Graph L_Graph L_Str L_Num L_Text L_DslStr L_DslVal L_History L_GraphJson2 L_Schema L_Schema2.
From Verif Require Import P_Dsl.
From Verif Require Export L_Syntax3.
From Coq Require Import Lia Permutation.
Close Scope Z_scope.

(** ** Text *)
Lemma ascii_text s : forallb (fun c => (code c <? 128)%N) s = true -> is_text s = true.
Proof. exact (L_GraphJson2.plain_text s). Qed.
Lemma word_plain s : Forall (fun x => is_alpha x = true \/ is_digit x = true \/ x = "_"%char) s -> forallb (fun c => (code c <? 128)%N) s = true.
Proof.
  intros F. apply forallb_forall. rewrite Forall_forall in F. intros c I. specialize (F c I).
  destruct c as [[] [] [] [] [] [] [] []]; vm_compute in F; vm_compute; first [reflexivity|exfalso; intuition discriminate].
Qed.
Lemma name_text s : name_syntax s -> is_text s = true.
Proof. intros (c & r & -> & C & F). apply ascii_text, word_plain. constructor; [tauto|exact F]. Qed.
Lemma digits_text n s : digits_syntax n s -> is_text s = true.
Proof. intros [_ F]. apply ascii_text, word_plain. eapply Forall_impl; [|exact F]. tauto. Qed.
Lemma number_syntax_text s : number_syntax s -> is_text s = true.
Proof.
  intros (sign & ints & rest & -> & S & (n & _ & I) & R). apply text_app; [destruct S as [->| ->]; reflexivity|]. apply text_app; [exact (digits_text n ints I)|].
  destruct R as [->|(f & k & -> & _ & F)]; [reflexivity|]. apply (text_app (L ".")); [reflexivity|exact (digits_text k f F)].
Qed.
Lemma code_text k : code_syntax k -> is_text k = true.
Proof. intros [_ F]. apply ascii_text, word_plain. eapply Forall_impl; [|exact F]. intros c H. left. unfold is_alpha. rewrite H. now rewrite ?orb_true_r. Qed.
Lemma repeat_text c k : (code c <? 128)%N = true -> is_text (repeat c k) = true.
Proof. intros C. apply ascii_text. induction k as [|k IH]; [reflexivity|]. cbn [repeat forallb]. now rewrite C. Qed.
Lemma indent_text o n : is_text (indent_string o n) = true.
Proof. destruct (indent_shape o n) as (c & k & -> & C). apply repeat_text. destruct C as [->| ->]; reflexivity. Qed.
Lemma concat_text ls : Forall (fun s => is_text s = true) ls -> is_text (concat ls) = true.
Proof. intros F. induction F as [|s ls S F IH]; [reflexivity|]. cbn [concat]. now apply text_app. Qed.
Lemma quote_is_text s : is_text s = true -> is_text ([DQ] ++ s ++ [DQ]) = true.
Proof. intros H. apply (text_app [DQ]); [reflexivity|]. apply text_app; [exact H|reflexivity]. Qed.
Lemma string_text o s : is_text s = true -> one_line s \/ (In LF s /\ unquoted s) -> is_text (generate_string s o) = true.
Proof.
  intros T [[Q N]|[I _]]; unfold generate_string.
  - rewrite (proj2 (contains_char_false s LF) N). rewrite replace_free; [now apply quote_is_text|discriminate|]. now apply contains_char_false.
  - rewrite (proj2 (contains_char s LF) I). cbv zeta. apply (text_app q3); [reflexivity|]. apply (text_app [LF]); [reflexivity|].
    apply text_app; [|apply text_app; [apply indent_text|reflexivity]]. apply concat_text. rewrite Forall_map, Forall_forall. intros l H.
    destruct (lines_part s l H T) as [X _]. apply text_app; [apply indent_text|]. apply text_app; [exact X|reflexivity].
Qed.
Lemma Z_text z : is_text (show_Z z) = true. Proof. apply number_syntax_text, show_Z_syntax. Qed.
Lemma padded_text k n : is_text (padded k n) = true. Proof. exact (digits_text k _ (padded_syntax k n)). Qed.
Lemma datetime_is_text d : is_text (generate_datetime d) = true.
Proof.
  unfold generate_datetime, format_date, format_hm. destruct (civil_of_days (dt_date d)) as [[y m] dd].
  repeat (apply padded_text || apply Z_text || reflexivity || apply text_app || match goal with |- is_text (if ?b then _ else _) = true => destruct b end).
Qed.
Lemma value_text env o v : expressible env v -> is_text (generate_value env o v) = true.
Proof.
  induction v as [b|s|i|f|a k|r|vs IH|d|p|s] using value_ind'; intros E; cbn [expressible] in E; cbn [generate_value].
  - destruct b; reflexivity.
  - now apply string_text.
  - apply Z_text.
  - now apply number_syntax_text.
  - apply text_app; [apply number_syntax_text, show_dec_syntax|]. apply (text_app (L " ")); [reflexivity|now apply code_text].
  - destruct r as [id|id f]; cbn [generate_reference].
    + destruct E as (t & i & -> & T & I). apply text_app; [now apply name_text|]. apply (text_app (L ".")); [reflexivity|now apply name_text].
    + destruct E as (t & i & -> & T & I & F). apply text_app; [|apply (text_app (L ".")); [reflexivity|now apply name_text]].
      apply text_app; [now apply name_text|]. apply (text_app (L ".")); [reflexivity|now apply name_text].
  - destruct vs as [|v vs]; [reflexivity|]. apply (text_app (L "[")); [reflexivity|]. apply text_app; [|reflexivity]. apply join_text; [reflexivity|].
    rewrite Forall_map. induction IH as [|x l X _ IHl]; [constructor|]. destruct E as [E1 E2]. constructor; [now apply X|now apply IHl].
  - apply datetime_is_text.
  - unfold generate_path. apply (text_app (L "path")); [reflexivity|apply quote_is_text, E].
  - unfold generate_enum. apply (text_app (L "enum")); [reflexivity|apply quote_is_text, E].
Qed.
Lemma entity_text env o e : expressible_entity env e -> is_text (generate_entity env o e) = true.
Proof.
  intros (T & _ & I & F). unfold generate_entity. destruct (decompose_entity_id (e_id e)) as [t i]. cbn [snd] in I.
  apply text_app; [now apply name_text|]. apply (text_app (L " ")); [reflexivity|]. apply text_app; [now apply name_text|]. apply (text_app (L " {")); [reflexivity|].
  apply (text_app [LF]); [reflexivity|]. apply text_app; [|reflexivity]. apply concat_text. rewrite Forall_map. eapply Forall_impl; [|exact F]. intros fv [N V].
  apply text_app; [apply indent_text|]. unfold generate_field. apply text_app; [|reflexivity]. apply text_app; [now apply name_text|]. apply (text_app (L " = ")); [reflexivity|]. now apply value_text.
Qed.
Lemma dsl_text env o es : Forall (expressible_entity env) es -> is_text (generate_dsl env o es) = true.
Proof.
  intros F. induction F as [|e es E F IH]; [reflexivity|]. cbn [generate_dsl]. destruct es as [|e2 es]; [now apply entity_text|].
  apply text_app; [now apply entity_text|]. apply text_app; [destruct (g_blank o); reflexivity|exact IH].
Qed.
Lemma schema_is_text ho o s : shuffles ho -> expressible_schema s -> is_text (generate_schema ho o s) = true.
Proof.
  intros SH [N F]. unfold generate_schema. apply (text_app (L "schema ")); [reflexivity|]. apply text_app; [now apply name_text|].
  apply (text_app (L " {")); [reflexivity|]. apply (text_app [LF]); [reflexivity|]. apply text_app; [|reflexivity]. apply concat_text. rewrite Forall_map, Forall_forall. rewrite Forall_forall in F.
  intros [id f] I. destruct (F _ (ordered_in ho s _ SH I)) as (T & _ & A). cbn [fst snd] in *. unfold generate_schema_field.
  repeat first [apply indent_text | exact T | apply text_app | reflexivity].
  - destruct (fs_type f); reflexivity.
  - destruct (fs_allowed f) as [vs|]; [|reflexivity]. unfold allowed_text. repeat first [apply indent_text | apply text_app | reflexivity].
    apply join_text; [reflexivity|]. rewrite Forall_map. eapply Forall_impl; [|exact (A vs eq_refl)]. intros x [X _]. now apply quote_is_text.
  - destruct (fs_required f); reflexivity.
Qed.

(** ** What is kept *)
Lemma cont_low c : (code c <? 128)%N = true -> is_cont c = false.
Proof. destruct c as [[] [] [] [] [] [] [] []]; vm_compute; congruence. Qed.
Lemma take_conts k s : utf8_go k s = true -> exists w r, s = w ++ r /\ length w = k /\ Forall (fun d => is_cont d = true) w /\ utf8_go 0 r = true.
Proof.
  revert s. induction k as [|k IH]; intros s H; [now exists [], s|]. destruct s as [|c s]; [discriminate|]. cbn [utf8_go] in H. apply andb_true_iff in H as [C H].
  destruct (IH s H) as (w & r & -> & Ln & F & R). exists (c :: w), r. cbn [length]. auto.
Qed.
Lemma text_utf8 s : is_text s = true -> utf8 s.
Proof.
  unfold is_text. remember (length s) as n eqn:E. assert (Ln : length s <= n) by lia. clear E. revert s Ln.
  induction n as [|n IH]; intros s Ln H; [destruct s; [constructor|cbn in Ln; lia]|]. destruct s as [|c s]; [constructor|]. cbn [length] in Ln.
  assert (X : is_cont c = false /\ utf8_go (cont_bytes c) s = true).
  { pose proof (text_head c s H) as X. split; [exact X|]. cbn [utf8_go] in H. unfold cont_bytes.
    destruct (code c <? 128)%N eqn:A; [exact H|]. destruct (code c <? 194)%N; [discriminate|]. destruct (code c <? 224)%N; [exact H|].
    destruct (code c <? 240)%N; [exact H|]. destruct (code c <? 245)%N; [exact H|discriminate]. }
  destruct X as [X Y]. destruct (take_conts _ s Y) as (w & r & -> & Lw & F & R). change (c :: w ++ r) with ((c :: w) ++ r). constructor; [cbn; auto|].
  apply IH; [rewrite app_length in Ln; lia|exact R].
Qed.
Lemma name_undotted s : name_syntax s -> ~ In "."%char s.
Proof.
  intros (c & r & -> & C & F) [H|H]; [subst; destruct C as [C|C]; discriminate|]. rewrite Forall_forall in F. destruct (F _ H) as [X|[X|X]]; discriminate.
Qed.
Lemma kept_expressible env v : kept env v -> expressible env v.
Proof.
  induction v as [b|s|i|f|a k|r|vs IH|d|p|s] using value_ind'; intros K; cbn [kept] in K; cbn [expressible].
  - exact Logic.I.
  - tauto.
  - exact Logic.I.
  - tauto.
  - tauto.
  - destruct r; destruct K as (t & i & K); exists t, i; tauto.
  - destruct K as [_ K]. induction IH as [|v vs V _ IHl]; [exact Logic.I|]. destruct K as [K1 K2]. split; [now apply V|now apply IHl].
  - destruct K as [P (_ & _ & O)]. split; [exact P|]. pose proof (Z.quot_rem' (dt_off d) 3600). destruct (Z.eq_dec (Z.quot (dt_off d) 3600) 0); lia.
  - destruct K.
  - tauto.
Qed.
Lemma code_unspaced k : code_syntax k -> ~ In " "%char k.
Proof. intros [_ F] H. rewrite Forall_forall in F. specialize (F _ H). discriminate. Qed.
Lemma kept_survives env o path v : kept env v -> survives env o path v.
Proof.
  induction v as [b|s|i|f|a k|r|vs IH|d|p|s] using value_ind'; intros K; cbn [kept] in K.
  - apply C24_booleans.
  - apply C25_strings_survive_exactly; [now apply text_utf8|]. unfold storable_text, one_line in *. tauto.
  - now apply C24_integers.
  - now apply C24_floats.
  - apply C27_currencies; try tauto. now apply code_unspaced.
  - destruct r as [id|id f].
    + destruct K as (t & i & -> & T & I & N). apply C24_entity_references. split; [exact N|]. exists t, i. split; [reflexivity|]. split; now apply name_undotted.
    + destruct K as (t & i & -> & T & I & N & F). apply C24_field_references. split; [|now apply name_undotted]. split; [exact N|]. exists t, i. split; [reflexivity|]. split; now apply name_undotted.
  - destruct K as [H K]. apply C29_lists_survive_exactly. split; [|exact H]. clear H. induction IH as [|v vs V _ IHl]; [constructor|]. destruct K as [K1 K2]. constructor; [now apply V|now apply IHl].
  - destruct K as [P K]. now apply C26_survives_exactly.
  - destruct K.
  - destruct K as (_ & [Q _] & N). apply C28_enums_survive_exactly. split; [intros r ->; apply Q; now left|]. split; [intros r ->; apply Q, in_or_app; right; now left|].
    intros x y E. rewrite (app_assoc x), (app_assoc (x ++ _)) in E. destruct y as [|c y] using rev_ind.
    + rewrite app_nil_r in E. apply app_inj_tail in E as [E _]. exact (N x E).
    + rewrite !app_assoc in E. apply app_inj_tail in E as [E _]. apply Q. rewrite E. apply in_or_app. left. apply in_or_app. right. now left.
Qed.
