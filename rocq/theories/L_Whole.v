(** Lemmas for C73. *)
From Coq Require Import Lia Permutation.
From Verif Require Import S_Graph L_Graph.
From Verif Require Import S_Whole L_Str L_Text L_Schema L_Schema2 L_Ids L_Fs L_Server L_Load L_Workspace L_History L_DslStr L_Syntax L_Life.
From Verif Require P_Query.
From Verif Require Import M_Fs M_Dsl.
Close Scope Z_scope.

(** ** Blocks *)
Lemma in_entities n bs : In n (entities_in bs) <-> In (EntityBlock n) bs.
Proof.
  unfold entities_in. rewrite in_flat_map. split.
  - intros (b & I & H). destruct b as [s|m]; [destruct H|]. destruct H as [<-|[]]. exact I.
  - intros I. exists (EntityBlock n). split; [exact I|now left].
Qed.
Section Built.
Context (c : ctx) (w : place) (d : fs) (st : state) (B : built c w d st).

Lemma block_iff path n : In (path, n) (entity_blocks (st_files st)) <->
  exists r s bs, source_of w d r s /\ file_syntax bs s /\ In (EntityBlock n) bs /\ path = path_text r.
Proof.
  destruct B as [RI NL TD FS DO SH PS PC RB]. destruct (rebuild_files c d st RB) as (fs & LD & Ef & _).
  destruct (load_directory_spec c d w fs RI NL TD LD) as (_ & LS & _).
  unfold entity_blocks. rewrite Ef, in_flat_map. split.
  - intros (pf & I & M). apply (Permutation_in _ (PC fs)) in I. apply LS in I as (r & s & ps & S & P & ->).
    destruct (DO r s S) as (bs & F). rewrite (FS bs s F) in P. injection P as <-. apply in_map_iff in M as (m & E & Im). cbn in E, Im. injection E as <- <-.
    exists r, s, bs. rewrite <- in_entities. auto.
  - intros (r & s & bs & S & F & I & ->). exists (S_Server.loaded c r (tree_of bs)). split.
    + apply (Permutation_in _ (Permutation_sym (PC fs))). apply LS. exists r, s, (tree_of bs). auto.
    + apply in_map_iff. exists n. split; [reflexivity|]. now apply in_entities.
Qed.
Lemma built_parts : exists ss, consistent (c_env c) (st_files st) ss (b_entities (st_build st)) /\ (forall s, In s (b_schemas (st_build st)) <-> In s ss) /\
  NoDup (map e_id (b_entities (st_build st))) /\ st_graph st = build (run [OAddMany (b_entities (st_build st))]) /\
  spec_run [OAddMany (b_entities (st_build st))] = b_entities (st_build st).
Proof.
  destruct B as [RI NL TD FS DO SH PS PC RB]. destruct (rebuild_files c d st RB) as (fs & LD & Ef & LG).
  apply load_ok in LG as (BW & ND & Eg). apply (build_ok _ _ _ _ _ SH) in BW as (ss & C & Es). exists ss. split; [exact C|]. split.
  - intros s. rewrite Es. split; apply Permutation_in; [apply PS|apply Permutation_sym, PS].
  - split; [exact ND|]. split; [exact Eg|]. pose proof (load_spec _ ND) as X. exact X.
Qed.
Lemma entity_iff e : In e (b_entities (st_build st)) <->
  exists r s bs n, source_of w d r s /\ file_syntax bs s /\ In (EntityBlock n) bs /\ to_entity (c_env c) (path_text r) n = Ok e.
Proof.
  destruct built_parts as (ss & (_ & F & _) & _). split.
  - intros I. destruct (L_Load.Forall2_in_r _ _ _ _ F I) as ([p n] & Ib & R). apply block_iff in Ib as (r & s & bs & S & Fs & In' & ->). exists r, s, bs, n. auto.
  - intros (r & s & bs & n & S & Fs & I & R). assert (Ib : In (path_text r, n) (entity_blocks (st_files st))) by (apply block_iff; exists r, s, bs; auto).
    destruct (L_Load.Forall2_in_l _ _ _ _ F Ib) as (e' & Ie & R'). unfold reads_entity in R'. cbn [fst snd] in R'. congruence.
Qed.
End Built.

(** ** Shapes *)
Lemma fields_shape fs t : fields_syntax fs t -> Forall (fun n => exists name v, n = field_node name v /\ value_syntax v) fs.
Proof. induction 1; constructor; eauto. Qed.
Lemma block_shape bs s n : file_syntax bs s -> In (EntityBlock n) bs ->
  exists t i fs body, n = {| en_type := Some t; en_id := Some i; en_fields := fs |} /\ fields_syntax fs body.
Proof.
  induction 1 as [| ? t ? i ? ? fs body bs rest ? ? ? ? ? ? ? ? F ? IH|]; intros I; [destruct I| |].
  - destruct I as [[= <-]|I]; [|exact (IH I)]. exists t, i, fs, body. auto.
  - destruct I as [I|I]; [discriminate|auto].
Qed.

(** ** Fields *)
Lemma first_field_iff env path fs vs name : Forall (fun n => exists name v, n = field_node name v /\ value_syntax v) fs ->
  omap (convert_field env path) fs = Ok vs -> forall v,
  (exists a b, vs = a ++ (name, v) :: b /\ ~ In name (map fst a)) <->
  exists vn p, first_field fs name vn /\ value_syntax vn /\ from_node env path vn = Ok p /\ to_value p = v.
Proof.
  intros F. revert vs. induction F as [|n fs (nm & vn & -> & VS) F IH]; intros vs H v.
  - injection H as <-. split; [intros ([|] & b & E & _); discriminate|]. intros (vn & p & ([|] & r & E & _) & _); discriminate.
  - rewrite omap_cons in H.
    replace (convert_field env path (field_node nm vn)) with (obind (omap_err (fun _ : perr => InvalidFieldValue) (from_node env path vn)) (fun p => Ok (nm, to_value p))) in H by reflexivity.
    destruct (from_node env path vn) as [p| |] eqn:P; try discriminate. cbn [omap_err obind] in H.
    destruct (omap (convert_field env path) fs) as [vs'| |] eqn:O; try discriminate. cbn [obind] in H. injection H as <-.
    specialize (IH vs' eq_refl v). destruct (str_eqb_spec nm name) as [->|N].
    + split.
      * intros ([|[a1 a2] a] & b & E & NI); [|cbn in E; injection E as <- _ _; exfalso; apply NI; now left].
        injection E as <- _. exists vn, p. split; [exists [], fs; split; [reflexivity|intros n []]|auto].
      * intros (vn' & p' & ([|n l] & r & E & NI) & VS' & P' & V).
        -- injection E as <- <-. rewrite P in P'. injection P' as <-. exists [], vs'. rewrite V. split; [reflexivity|intros []].
        -- injection E as <- _. exfalso. eapply NI; [now left|reflexivity].
    + split.
      * intros ([|[a1 a2] a] & b & E & NI); [injection E as E _ _; congruence|]. injection E as <- _ E.
        destruct (proj1 IH) as (vn' & p' & (l & r & El & NI') & R).
        { exists a, b. split; [exact E|]. intros X. apply NI. now right. }
        exists vn', p'. split; [|exact R]. exists (field_node nm vn :: l), r. rewrite El. split; [reflexivity|].
        intros m [<-|I]; [cbn; congruence|auto].
      * intros (vn' & p' & ([|m l] & r & El & NI') & R); [injection El as El _; congruence|]. injection El as <- El.
        destruct (proj2 IH) as (a & b & E & NI).
        { exists vn', p'. split; [|exact R]. exists l, r. split; [exact El|]. intros m I. apply NI'. now right. }
        exists ((nm, to_value p) :: a), b. rewrite E. split; [reflexivity|]. cbn. tauto.
Qed.

(** ** Values *)
Definition of_kind (k : vkind) (p : pvalue) : Prop :=
  match k with
  | KBoolean => exists b, p = PBool b
  | KString => exists s, p = PStr s
  | KNumber => (exists z, p = PInt z) \/ exists f, p = PFloat f
  | KCurrency => exists a c, p = PCur a c
  | KReference => (exists t i, p = PEntityRef t i) \/ exists t i f, p = PFieldRef t i f
  | KList => exists l, p = PList l
  | KDate | KDateTime => exists d, p = PDate d
  | KPath => exists s, p = PPath s
  | KEnum => exists s, p = PEnum s
  | KUnknown _ => False
  end.
Lemma datetime_kind env raw p : parse_datetime env raw = Ok p -> exists d, p = PDate d.
Proof.
  unfold parse_datetime. destruct (split_str (L " at ") raw) as [|a [|b [|]]]; try discriminate. destruct (parse_naive_date a) as [day|]; [|discriminate].
  match goal with |- obind ?x _ = _ -> _ => destruct x as [[t o]| |]; try discriminate end. cbn [obind].
  repeat match goal with |- match ?x with _ => _ end = _ -> _ => destruct x; try discriminate end; intros [= <-]; eauto.
Qed.
Lemma node_kind_of env path k raw l p : from_node env path (VNode (Some k) raw l) = Ok p -> of_kind k p.
Proof.
  destruct k; cbn [from_node of_kind].
  - unfold parse_boolean. destruct (str_eqb raw _); [intros [= <-]; eauto|]. destruct (str_eqb raw _); [intros [= <-]; eauto|discriminate].
  - unfold parse_string. destruct (starts_with raw q3 && ends_with raw q3); [|intros [= <-]; eauto].
    destruct (trim_common_indentation _); try discriminate. intros [= <-]. eauto.
  - unfold parse_number. destruct (contains raw (L ".")); [destruct (parse_f64 raw)|destruct (parse_i64 raw)]; try discriminate; intros [= <-]; eauto.
  - unfold parse_currency. destruct (split_char " " raw) as [|a [|b [|]]]; try discriminate. destruct (parse_dec a); [|discriminate].
    destruct (known_currency env b); [|discriminate]. intros [= <-]. eauto.
  - unfold parse_reference. destruct (split_char "." raw) as [|a [|b [|e [|]]]]; try discriminate; intros [= <-]; eauto.
  - destruct (omap (from_node env path) l); try discriminate. cbn [obind]. unfold parse_list_from_vec. destruct (check_items _ _ _); [discriminate|]. intros [= <-]. eauto.
  - apply datetime_kind.
  - unfold parse_date. destruct (parse_naive_date raw); [|discriminate]. intros [= <-]. eauto.
  - unfold parse_path. intros [= <-]. eauto.
  - unfold parse_enum. intros [= <-]. eauto.
  - discriminate.
Qed.

Ltac one_kind := let H := fresh in intros H; match type of H with of_kind ?k _ => destruct k end; cbn [of_kind] in H; try reflexivity; try contradiction; decompose [ex or] H; discriminate.
Lemma text_kind k s : of_kind k (PStr s) -> k = KString. Proof. one_kind. Qed.
Lemma integer_kind k z : of_kind k (PInt z) -> k = KNumber. Proof. one_kind. Qed.
Lemma ref_kind k t i : of_kind k (PEntityRef t i) -> k = KReference. Proof. one_kind. Qed.

(** *** Texts *)
Lemma parse_line s : one_line s -> parse_string ([DQ] ++ s ++ [DQ]) = Ok (PStr s).
Proof.
  intros [H _]. unfold parse_string.
  assert (N : starts_with (quoted s) q3 = false).
  { unfold quoted, q3. destruct s as [|c s]; [reflexivity|]. cbn [app starts_with]. rewrite Ascii.eqb_refl. cbn [andb].
    destruct (Ascii.eqb_spec DQ c) as [<-|]; [exfalso; apply H; left; reflexivity|]. cbn [andb]. reflexivity. }
  change ([DQ] ++ s ++ [DQ]) with (quoted s). rewrite N. cbn [andb]. rewrite trim_quoted; auto.
Qed.
Lemma up_to_no_end body : up_to q3 body -> forall r, body <> r ++ [DQ].
Proof.
  intros U r ->. specialize (U r [DQ]). assert (E : [DQ] = @nil ascii) by (apply U; rewrite <- !app_assoc; reflexivity). discriminate.
Qed.
Lemma parse_lines body : up_to q3 body -> parse_string (q3 ++ body ++ q3) = obind (trim_common_indentation body) (fun s => Ok (PStr s)).
Proof.
  intros U. pose proof (up_to_no_end body U) as NE. unfold parse_string. rewrite q3_prefix.
  rewrite (proj2 (ends_with_spec (q3 ++ body ++ q3) q3)) by (exists (q3 ++ body); rewrite app_assoc; auto).
  cbn [andb]. destruct body as [|c body]; [reflexivity|].
  rewrite trim_start_pat_once; [|discriminate|].
  - rewrite trim_end_pat_once; [reflexivity|discriminate|].
    destruct (ends_with (c :: body) q3) eqn:E; auto. apply ends_with_spec in E as (r & E).
    exfalso. apply (NE (r ++ [DQ; DQ])). rewrite E, <- app_assoc. reflexivity.
  - destruct (starts_with ((c :: body) ++ q3) q3) eqn:E; auto. apply starts_with_spec in E as (r & E). exfalso.
    assert (R : r = []) by exact (U [] r E). subst r. cbn in E. injection E as E1 E2. destruct body as [|c2 body].
    + apply (NE []). rewrite E1. reflexivity.
    + injection E2 as E2 E3. destruct body as [|c3 body]; [apply (NE [c]); rewrite E2; reflexivity|].
      injection E3 as E3 E4. destruct body; discriminate.
Qed.
Lemma text_parse raw s : literal_syntax KString raw -> parse_string raw <> Panic -> (parse_string raw = Ok (PStr s) <-> text_literal raw s).
Proof.
  intros LS NP. split.
  - inversion LS as [|a O E|body U E| | | | | | | | |]; subst.
    + rewrite parse_line by exact O. intros [= ->]. now constructor.
    + rewrite parse_lines in * by exact U. unfold trim_common_indentation in *. cbv zeta in *.
      destruct (omap_dedent (min_indent (lines body)) (lines body)) as [[A Q]|[N (ds & Q & F)]]; rewrite Q in *; cbn [obind] in *; [congruence|].
      intros [= <-]. apply (text_lines body (min_indent (lines body)) ds); [exact U|now apply common_min|exact F|apply utrim_spec].
  - intros T. inversion T as [a O E1 E2|body k ds a U C F TR E1 E2]; subst; [now apply parse_line|].
    rewrite parse_lines in * by exact U. unfold trim_common_indentation in *. cbv zeta in *. apply common_min in C. rewrite C in *.
    destruct (omap_dedent k (lines body)) as [[A Q]|[N (ds' & Q & F')]]; rewrite Q in *; cbn [obind] in *; [congruence|].
    assert (ds' = ds) as ->.
    { clear - F F'. revert ds F. induction F' as [|l m ls ds' H F' IH]; intros ds F; inversion F as [|? m' ? ds2 H' F2]; subst; [reflexivity|].
      f_equal; [|now apply IH]. destruct H as [[? ->]|[? ->]], H' as [[? ->]|[? ->]]; auto; lia. }
    destruct TR as (X & Y & a & b & Ha & Hb & E). do 2 f_equal. rewrite E. apply utrim_around; auto.
Qed.
Lemma text_value env path vn p s : value_syntax vn -> from_node env path vn = Ok p ->
  (to_value p = VStr s <-> exists raw, vn = VNode (Some KString) raw [] /\ text_literal raw s).
Proof.
  intros VS FN. split.
  - intros V. destruct p; try discriminate. injection V as ->. inversion VS as [k raw LS|g vs t G IS FV]; subst.
    + pose proof (text_kind k s (node_kind_of _ _ _ _ _ _ FN)) as ->.
      exists raw. split; [reflexivity|]. cbn [from_node] in FN. apply text_parse; [exact LS|congruence|exact FN].
    + apply node_kind_of in FN as (l & E). discriminate.
  - intros (raw & -> & T). cbn [from_node] in FN. inversion VS; subst. apply text_parse in T; [|assumption|congruence]. rewrite T in FN. injection FN as <-. reflexivity.
Qed.

(** *** Integers *)
Lemma digits_snoc s c acc : digits_val acc (s ++ [c]) = match digits_val acc s with Some n => if is_digit c then Some (n * 10 + (code c - 48))%N else None | None => None end.
Proof.
  revert acc. induction s as [|x s IH]; intros acc; cbn [app digits_val]; [destruct (is_digit c); reflexivity|]. destruct (is_digit x); [apply IH|reflexivity].
Qed.
Lemma digit_code c : is_digit c = true -> (48 <= code c <= 57)%N.
Proof. unfold is_digit. rewrite andb_true_iff, !N.leb_le. auto. Qed.
Lemma numeral_iff s z : numeral s z <-> exists n, parse_N s = Some n /\ z = Z.of_N n.
Proof.
  split.
  - induction 1 as [c D|s z c N (n & P & ->) D].
    + exists (code c - 48)%N. unfold parse_N. cbn [digits_val]. rewrite D. pose proof (digit_code c D). split; [f_equal; lia|lia].
    + exists (n * 10 + (code c - 48))%N. pose proof (digit_code c D). split; [|lia].
      unfold parse_N in *. destruct s as [|x s]; [discriminate|]. change ((x :: s) ++ [c]) with (x :: (s ++ [c])). rewrite app_comm_cons, digits_snoc, P, D. reflexivity.
  - intros (n & P & ->). revert n P. induction s as [|c s IH] using rev_ind; intros n P; [discriminate|].
    assert (V : digits_val 0 (s ++ [c]) = Some n) by (unfold parse_N in P; destruct (s ++ [c]) eqn:E; [destruct s; discriminate|exact P]).
    rewrite digits_snoc in V. destruct (digits_val 0 s) as [m|] eqn:M; [|discriminate]. destruct (is_digit c) eqn:D; [|discriminate]. injection V as <-.
    pose proof (digit_code c D). destruct s as [|x s].
    + injection M as <-. replace (Z.of_N (0 * 10 + (code c - 48))) with (Z.of_N (code c) - 48)%Z by lia. now constructor.
    + replace (Z.of_N (m * 10 + (code c - 48))) with (10 * Z.of_N m + (Z.of_N (code c) - 48))%Z by lia. apply numeral_next; [|exact D]. apply IH. exact M.
Qed.
Lemma numeral_digits s z : numeral s z -> s <> [] /\ Forall (fun c => is_digit c = true) s.
Proof.
  induction 1 as [c D|s z c N (E & F) D]; [split; [discriminate|auto]|]. split; [destruct s; discriminate|]. apply Forall_app. auto.
Qed.
Lemma no_point s : Forall (fun c => is_digit c = true) s -> ~ In "."%char s.
Proof. intros F I. rewrite Forall_forall in F. apply F in I. discriminate. Qed.
Lemma integer_reads raw z : integer_literal raw z -> parse_number raw = if in_i64 z then Ok (PInt z) else Err (InvalidInteger raw).
Proof.
  intros [N|(s & -> & N)]; pose proof (numeral_digits _ _ N) as [NE F]; apply numeral_iff in N as (k & K & EZ); unfold parse_number; change (L ".") with ["."%char].
  - rewrite (proj2 (contains_char_false _ _) (no_point _ F)). destruct raw as [|c s]; [congruence|].
    assert (P : parse_i64 (c :: s) = if in_i64 z then Some z else None).
    { subst z. inversion F as [|? ? D]; subst. unfold parse_i64.
      destruct c as [[] [] [] [] [] [] [] []]; try discriminate D; rewrite K; reflexivity. }
    rewrite P. destruct (in_i64 z); reflexivity.
  - rewrite (proj2 (contains_char_false _ _)) by (intros [I|I]; [discriminate|exact (no_point _ F I)]).
    unfold parse_i64. rewrite K. cbn [option_map]. replace (- Z.of_N k)%Z with z by lia. destruct (in_i64 z); reflexivity.
Qed.
Lemma digits_val_digits s : forall acc, Forall (fun c => is_digit c = true) s -> exists k, digits_val acc s = Some k.
Proof. induction s as [|c s IH]; intros acc F; cbn [digits_val]; [eauto|]. inversion F as [|? ? D F']; subst. rewrite D. now apply IH. Qed.
Lemma split_two t i : ~ In "."%char t -> ~ In "."%char i -> split_char "." (t ++ L "." ++ i) = [t; i].
Proof. intros T I. exact (split_char_join "." [t; i] ltac:(discriminate) ltac:(repeat constructor; assumption)). Qed.
Lemma split_three t i f : ~ In "."%char t -> ~ In "."%char i -> ~ In "."%char f -> split_char "." (t ++ L "." ++ i ++ L "." ++ f) = [t; i; f].
Proof. intros T I F. exact (split_char_join "." [t; i; f] ltac:(discriminate) ltac:(repeat constructor; assumption)). Qed.
Lemma number_cases raw : number_syntax raw -> (exists z, integer_literal raw z) \/
  (In "."%char raw /\ forall p, parse_number raw = Ok p -> exists f, p = PFloat f).
Proof.
  intros (sg & ints & rest & E & S & (n & Pn & DL & DI) & R). destruct R as [->|(frac & m & -> & Pm & DF)].
  - left. assert (X : exists k, parse_N ints = Some k).
    { destruct (digits_val_digits ints 0%N DI) as (k & K). exists k. unfold parse_N. destruct ints; [cbn in DL; lia|exact K]. }
    destruct X as (k & K). rewrite app_nil_r in E. subst raw. destruct S as [-> | ->].
    + exists (Z.of_N k). left. apply numeral_iff. eauto.
    + exists (- Z.of_N k)%Z. right. exists ints. split; [reflexivity|]. apply numeral_iff. exists k. split; [exact K|lia].
  - right. assert (IP : In "."%char raw) by (subst raw; rewrite !in_app_iff; right; right; left; now left). split; [exact IP|].
    intros p. unfold parse_number. change (L ".") with ["."%char]. rewrite (proj2 (contains_char _ _) IP). destruct (parse_f64 raw); [|discriminate]. intros [= <-]. eauto.
Qed.
Lemma integer_value env path vn p z : value_syntax vn -> from_node env path vn = Ok p ->
  (to_value p = VInt z <-> exists raw, vn = VNode (Some KNumber) raw [] /\ integer_literal raw z).
Proof.
  intros VS FN. split.
  - intros V. destruct p; try discriminate. injection V as ->. inversion VS as [k raw LS|g vs t G IS FV]; subst.
    + pose proof (integer_kind k z (node_kind_of _ _ _ _ _ _ FN)) as ->. exists raw. split; [reflexivity|]. cbn [from_node] in FN.
      inversion LS as [| | |s NS| | | | | | | |]; subst. destruct (number_cases raw NS) as [(z' & I)|(_ & NF)].
      * rewrite (integer_reads _ _ I) in FN. destruct (in_i64 z'); [|discriminate]. injection FN as <-. exact I.
      * destruct (NF _ FN). discriminate.
    + apply node_kind_of in FN as (l & E). discriminate.
  - intros (raw & -> & T). cbn [from_node] in FN. rewrite (integer_reads _ _ T) in FN. destruct (in_i64 z); [|discriminate]. injection FN as <-. reflexivity.
Qed.

(** *** References *)
Lemma name_no_dot s : name_syntax s -> ~ In "."%char s.
Proof.
  intros (c & r & -> & C & F) [I|I].
  - subst c. destruct C as [C|C]; discriminate.
  - rewrite Forall_forall in F. destruct (F _ I) as [X|[X|X]]; discriminate.
Qed.
Lemma reference_value env path vn p id : value_syntax vn -> from_node env path vn = Ok p ->
  (to_value p = VRef (REntity id) <-> exists t i, vn = VNode (Some KReference) (t ++ L "." ++ i) [] /\ name_syntax t /\ name_syntax i /\ id = compose_entity_id t i).
Proof.
  intros VS FN. split.
  - intros V. destruct p; try discriminate. injection V as <-. inversion VS as [k raw LS|g vs u G IS FV]; subst.
    + pose proof (ref_kind k t i (node_kind_of _ _ _ _ _ _ FN)) as ->. cbn [from_node] in FN. inversion LS; subst.
      * exists t0, i0. unfold parse_reference in FN. rewrite split_two in FN by (now apply name_no_dot). injection FN as <- <-. auto.
      * unfold parse_reference in FN. rewrite split_three in FN by (now apply name_no_dot). discriminate.
    + apply node_kind_of in FN as (l & E). discriminate.
  - intros (t & i & -> & T & I & ->). cbn [from_node] in FN. unfold parse_reference in FN. rewrite split_two in FN by (now apply name_no_dot). injection FN as <-. reflexivity.
Qed.
