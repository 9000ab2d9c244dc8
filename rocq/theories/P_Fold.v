(** C93: letters beyond ASCII. *)
From Coq Require Import Lia.
From Verif Require Import M_Graph S_Graph S_Query L_Graph.
From Verif Require Import S_Dsl S_Tools S_Schema S_Crash L_Str L_Sort L_Order L_Order2 L_Exec L_DslStr L_Tools L_Schema P_Graph P_Query P_Server.
From Verif Require Import S_Fold L_Fold.
From Verif Require Import M_Graph M_Query.
Close Scope Z_scope.

(** Where all texts are ASCII the lower-casing of other letters does not matter:
    queries answer as the rest of the model says. *)
Theorem C93_ascii_workspaces : forall f x ops ho q, folds_ascii f -> orders ho ->
  Forall ascii_entity (spec_run ops) -> ascii_query q ->
  execute_by f x (build (run ops)) ho q = execute x (build (run ops)) ho q.
Proof. intros f x ops ho q F O A Q. exact (execute_ascii f F x _ _ ho (built_run ops) O A q Q). Qed.
Print Assumptions C93_ascii_workspaces.

(** Whatever the lower-casing: the tests for parts of a text look for the
    lower-cased literal in the lower-cased field. *)
Theorem C93_text_search : forall f x v w a b,
  (v = VStr a \/ v = VEnum a \/ v = VPath a) -> (w = FStr b \/ w = FEnum b \/ w = FPath b) ->
  (exists p, compare_value_by f x v OpContains w = Ok p /\ (p = true <-> exists l r, f a = l ++ f b ++ r)) /\
  (exists p, compare_value_by f x v OpStartsWith w = Ok p /\ (p = true <-> exists r, f a = f b ++ r)) /\
  (exists p, compare_value_by f x v OpEndsWith w = Ok p /\ (p = true <-> exists l, f a = l ++ f b)).
Proof.
  intros f x v w a b Hv Hw. split; [|split];
    [exists (contains (f a) (f b))|exists (starts_with (f a) (f b))|exists (ends_with (f a) (f b))];
    (split; [destruct Hv as [->|[->| ->]], Hw as [->|[->| ->]]; reflexivity|]);
    [exact (contains_spec _ _)|exact (starts_with_spec _ _)|exact (ends_with_spec _ _)].
Qed.
Print Assumptions C93_text_search.

(** A list of texts contains a text if it occurs in one of them. *)
Theorem C93_list_contains : forall f x l b, exists p,
  compare_value_by f x (VList (map VStr l)) OpContains (FStr b) = Ok p /\
  (p = true <-> exists a u r, In a l /\ f a = u ++ f b ++ r).
Proof.
  intros f x l b. cbn [compare_value_by compare_list_by]. induction l as [|a l (p & E & H)]; cbn [map list_contains_by compare_string_by text_op_by or_unsupported].
  - exists false. split; [reflexivity|]. split; [discriminate|]. intros (a & u & r & [] & _).
  - destruct (contains (f a) (f b)) eqn:C.
    + exists true. split; [reflexivity|]. split; [|reflexivity]. intros _. apply contains_spec in C as (u & r & C). exists a, u, r. split; [left; reflexivity|exact C].
    + exists p. split; [exact E|]. rewrite H. split.
      * intros (a' & u & r & I & Q). exists a', u, r. split; [right; exact I|exact Q].
      * intros (a' & u & r & [<-|I] & Q); [|exists a', u, r; auto]. assert (X : contains (f a) (f b) = true) by (apply contains_spec; eauto). congruence.
Qed.
Print Assumptions C93_list_contains.

(** Whatever the lower-casing: ordering gives the one stable sort by the
    lower-cased texts, entities without the field last. *)
Theorem C93_order : forall f fr d es, sortable fr es ->
  stable_sort_of (compare_entities_by f fr d) es (order_step_by f fr d es) /\
  (forall r, stable_sort_of (compare_entities_by f fr d) es r -> r = order_step_by f fr d es) /\
  StronglySorted (in_direction d (ascending_by f fr)) (order_step_by f fr d es).
Proof.
  intros f fr d es S. destruct (sortable_preorder f fr d es S) as (P & T & FP & An). pose proof (sort_stable _ _ T es FP) as St.
  split; [exact St|]. split; [intros r R; exact (stable_sort_unique _ _ T es r _ FP R St)|]. destruct St as (Pm & So & _).
  exact (sorted_weaken _ _ _ _ (Permutation_Forall Pm FP) (fun a b Pa Pb => in_direction_by f fr d a b (An a b Pa Pb)) So).
Qed.
Print Assumptions C93_order.

(** Whatever the lower-casing: an enum field admits exactly the words that are
    one of the declared values but for letter case and outer white space. *)
Theorem C93_enum_words : forall f vs x,
  enum_admits_by f (allowed_by f vs) x = true <-> exists v, In v vs /\ same_word_by f x v.
Proof.
  intros f vs x. unfold enum_admits_by, allowed_by. rewrite str_in_In, in_map_iff. split.
  - intros (v & E & I). exists v. split; [exact I|]. exists (utrim x), (utrim v). split; [apply utrim_spec|]. split; [apply utrim_spec|]. symmetry. exact E.
  - intros (v & I & t & u & (A & B & a & b & Ha & Hb & E) & (A' & B' & a' & b' & Ha' & Hb' & E') & Q). exists v. split; [|exact I].
    rewrite E, E', !utrim_around by assumption. symmetry. exact Q.
Qed.
Print Assumptions C93_enum_words.

(** Whatever the lower-casing: searching ignoring case reports the first fifty of
    the lines whose lower-cased text holds the lower-cased query. *)
Theorem C93_search : forall f c d st query, query <> [] -> NoDup (map (fun pf => wf_rel (snd pf)) (st_files st)) ->
  exists l, all_hits_by f c d st query l /\
  match search_source_by f c d st query false with
  | EmptyQuery => False
  | NoMatches => l = []
  | Matches groups truncated => l <> [] /\ reported groups = firstn 50 l /\ (truncated = true <-> length l > 50)
  end.
Proof.
  intros f c d st query Nq ND. set (m := line_matches_by f query false). exists (flat_map (file_hits c d m) (source_paths st)).
  pose proof (sort_strict _ ND) as SS. fold (source_paths st) in SS. split.
  - split; [apply flat_hits_sorted; exact SS|]. intros p k t. rewrite flat_hits_spec. unfold known_text, source_paths. split.
    + intros (s & Hp & R & La & M). exists s. apply sort_in, in_map_iff in Hp as ([key g] & E & Hp). cbn in E.
      split; [split; [exists key, g; auto|exact R]|]. split; [exact La|]. apply contains_spec. exact M.
    + intros (s & ((key & g & Hf & E) & R) & La & M). exists s. split; [apply sort_in, in_map_iff; exists (key, g); auto|].
      split; [exact R|]. split; [exact La|]. apply contains_spec. exact M.
  - unfold search_source_by. destruct query as [|x query]; [congruence|]. fold m. destruct (search_files c d m (source_paths st) 0) as [[groups total] b] eqn:E.
    destruct (search_files_spec c d m _ 0 groups total b ltac:(unfold max_matches; lia) E) as (R & -> & ->).
    change (max_matches - 0) with 50 in *. destruct (Nat.eqb_spec (0 + length (reported groups)) 0) as [Z|Z].
    + destruct (flat_map _ _) as [|y l]; [reflexivity|]. rewrite R in Z. discriminate.
    + split; [intros X; rewrite X in R; rewrite R in Z; apply Z; reflexivity|]. split; [exact R|]. rewrite Nat.ltb_lt; lia.
Qed.
Print Assumptions C93_search.

(** Finding: [==] and [!=] ignore the case of ASCII letters only. Any lower-casing
    that takes a capital E with an acute accent to the small one makes the first
    contain, start with and end with the second, sort level with it, be admitted
    where the second is allowed, and yet differ from it. *)
Theorem C93_equality_ignores_case_refuted : exists a b, forall f x, f a = f b ->
  compare_value_by f x (VStr a) OpContains (FStr b) = Ok true /\
  compare_value_by f x (VStr a) OpStartsWith (FStr b) = Ok true /\
  compare_value_by f x (VStr a) OpEndsWith (FStr b) = Ok true /\
  cmp_values_by f (VStr a) (VStr b) = Eq /\
  enum_admits_by f (allowed_by f [b]) a = true /\
  compare_value_by f x (VStr a) OpEq (FStr b) = Ok false /\
  compare_value_by f x (VStr a) OpNe (FStr b) = Ok true.
Proof.
  exists [ascii_of_nat 195; ascii_of_nat 137], [ascii_of_nat 195; ascii_of_nat 169]. intros f x E.
  cbn [compare_value_by compare_string_by text_op_by or_unsupported cmp_values_by]. rewrite E.
  split; [f_equal; apply contains_spec; exists [], []; rewrite app_nil_r; reflexivity|].
  split; [f_equal; apply starts_with_spec; exists []; rewrite app_nil_r; reflexivity|].
  split; [f_equal; apply ends_with_spec; exists []; reflexivity|].
  split; [apply str_cmp_refl|].
  split; [|split; reflexivity]. unfold enum_admits_by, allowed_by. cbn [map]. apply str_in_In. left. 
  exact (eq_sym E).
Qed.
Print Assumptions C93_equality_ignores_case_refuted.

(** Lower-casing of ASCII and Latin-1 letters: a case for the theorems. *)
Fixpoint latin_lower (s : str) : str :=
  match s with
  | c :: (d :: s') as r =>
      if (code c =? 195)%N && (128 <=? code d)%N && (code d <=? 158)%N && negb (code d =? 151)%N
      then c :: ascii_of_N (code d + 32) :: latin_lower s'
      else lower_ascii c :: latin_lower r
  | [c] => [lower_ascii c]
  | [] => []
  end.
Lemma latin_ascii : folds_ascii latin_lower.
Proof.
  intros s. remember (length s) as n eqn:N. assert (B : length s <= n) by lia. clear N. revert s B. induction n as [|n IH]; intros s B A.
  - destruct s; [reflexivity|cbn in B; lia].
  - destruct s as [|c [|d s]]; [reflexivity|reflexivity|]. inversion A as [|c' s' Hc A']; subst.
    cbn [latin_lower]. destruct (N.eqb_spec (code c) 195) as [E|_]; [rewrite E in Hc; lia|]. cbn [andb].
    change (lower (c :: d :: s)) with (lower_ascii c :: lower (d :: s)). f_equal. apply (IH (d :: s)); [cbn in *; lia|exact A'].
Qed.
Definition capital_e : str := [ascii_of_nat 195; ascii_of_nat 137].
Definition small_e : str := [ascii_of_nat 195; ascii_of_nat 169].
Definition accents : list entity :=
  [ex_item (L "a") [(L "name", VStr (capital_e ++ L "mile"))]; ex_item (L "b") [(L "name", VStr (small_e ++ L "clair"))]; ex_item (L "c") []].
Definition plain_bytes : str -> bool := forallb (fun c => (code c <? 128)%N).
Fixpoint plain_values (v : value) : bool :=
  match v with VStr s | VEnum s | VPath s => plain_bytes s | VRef r => plain_bytes (reference_text r) | VList vs => forallb plain_values vs | _ => true end.
Lemma plain_bytes_ascii s : plain_bytes s = true -> all_ascii s.
Proof. intros H. unfold plain_bytes in H. rewrite forallb_forall in H. apply Forall_forall. intros c I. apply N.ltb_lt, H, I. Qed.
Lemma plain_values_ascii v s : plain_values v = true -> text_held v s -> all_ascii s.
Proof.
  intros P H. revert P. induction H as [s|s|s|r|vs v s I H IH]; cbn [plain_values]; try apply plain_bytes_ascii.
  intros P. rewrite forallb_forall in P. exact (IH (P v I)).
Qed.
Example C93_case :
  folds_ascii latin_lower /\ latin_lower capital_e = latin_lower small_e /\ sortable (FReg (L "name")) accents /\
  map e_id (order_step_by latin_lower (FReg (L "name")) Ascending accents) = [L "item.b"; L "item.a"; L "item.c"] /\
  map e_id (order_step (FReg (L "name")) Ascending accents) = [L "item.a"; L "item.b"; L "item.c"] /\
  compare_value_by latin_lower ex_ext (VList [VStr (L "x"); VStr (L "caf" ++ capital_e)]) OpContains (FStr (small_e)) = Ok true /\
  enum_admits_by latin_lower (allowed_by latin_lower [L " " ++ capital_e ++ L "T" ++ capital_e]) (small_e ++ L "t" ++ small_e ++ L "  ") = true /\
  search_source_by latin_lower c0 d0 st0 (L "ACME") false = search_source c0 d0 st0 (L "ACME") false /\
  Forall ascii_entity (spec_run ex_ops) /\ ascii_query {| q_from := SAll; q_ops := [QWhere {| cc_conds := [ex_id]; cc_comb := CAnd |}]; q_agg := None |}.
Proof.
  split; [exact latin_ascii|]. split; [vm_compute; reflexivity|].
  split; [exists {| ct_text := TStr; ct_num := TInt |}; repeat constructor|].
  do 5 (split; [vm_compute; reflexivity|]). split.
  - assert (X : Forall (fun e => plain_bytes (e_id e ++ e_type e) = true /\ forallb (fun p => plain_values (snd p)) (e_fields e) = true) (spec_run ex_ops)).
    { vm_compute. repeat constructor. }
    eapply Forall_impl; [|exact X]. intros e [H1 H2]. unfold plain_bytes in H1. rewrite forallb_app in H1. apply andb_true_iff in H1 as [Hi Ht].
    split; [apply plain_bytes_ascii, Hi|]. split; [apply plain_bytes_ascii, Ht|]. intros n v s G. rewrite forallb_forall in H2.
    unfold get_field in G.
    match type of G with context [find ?p ?l] => destruct (find p l) as [[k u]|] eqn:Fd end; [|discriminate G]. injection G as ->. apply find_some in Fd as [Fd _]. exact (plain_values_ascii v s (H2 _ Fd)).
  - intros cc c s [E|[]] I H. injection E as <-. destruct I as [<-|[]]. inversion H; subst. repeat constructor.
Qed.
