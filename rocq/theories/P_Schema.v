(** Schemas: C31 validation, C32 order and round trip, C47 the written text. *)
From Coq Require Import Lia.
From Verif Require Import M_Schema S_Schema L_Str L_Graph L_Text L_Schema L_Schema2 L_Workspace P_Dsl.
Close Scope Z_scope.

(** Example schema and orders. *)
Definition fid : field_order := fun l => l.
Definition frev : field_order := fun l => rev l.
Lemma fid_ok : shuffles fid.
Proof. intros l. reflexivity. Qed.
Lemma frev_ok : shuffles frev.
Proof. intros l. symmetry. apply Permutation_rev. Qed.
Definition task_schema : schema :=
  bbuild (L "task") [BField true (L "name") TStr; BField false (L "due") TDate;
                     BEnum true (L "state") [L "Open "; L "done"]].

(** ** C31 *)
Theorem C31_accepts_exactly_the_conforming : forall ho s e, shuffles ho -> (validate ho s e = [] <-> conforms s e).
Proof. intros ho s e O. exact (validate_conforms ho s e O). Qed.
Print Assumptions C31_accepts_exactly_the_conforming.
Example C31_case : exists e, conforms task_schema e /\ e_fields e <> [].
Proof.
  exists {| e_id := L "task.a"; e_type := L "task";
            e_fields := [(L "extra", VInt 1); (L "state", VEnum (L " OPEN")); (L "name", VStr (L "x"))] |}.
  split; [|discriminate]. apply (C31_accepts_exactly_the_conforming fid); [exact fid_ok|]. vm_compute. reflexivity.
Qed.

(** One error per violation. *)
Theorem C31_one_error_per_violation : forall ho s e, shuffles ho -> well_formed s ->
  NoDup (validate ho s e) /\ forall x, In x (validate ho s e) <-> violation s e x.
Proof.
  intros ho s e O W. split; [exact (validate_nodup ho s e O W)|]. intros x. exact (validate_in ho s e x O).
Qed.
Print Assumptions C31_one_error_per_violation.
Example C31_errors_case : well_formed task_schema /\
  validate fid task_schema {| e_id := L "t.a"; e_type := L "t"; e_fields := [(L "state", VEnum (L "shut")); (L "due", VStr (L "x"))] |}
  = [MismatchedEntityType (L "task") (L "t"); MissingRequiredField (L "name");
     MismatchedFieldType (L "due") TDate TStr; InvalidEnumValue (L "state") (L "shut") [L "open"; L "done"]].
Proof.
  split; [|vm_compute; reflexivity]. repeat constructor; cbn; intuition discriminate.
Qed.
Theorem C31_hash_order_is_irrelevant : forall ho ho' s e, shuffles ho -> shuffles ho' -> well_formed s ->
  Permutation (validate ho s e) (validate ho' s e).
Proof.
  intros ho ho' s e O O' W. apply NoDup_Permutation; [exact (validate_nodup ho s e O W)|exact (validate_nodup ho' s e O' W)|].
  intros x. rewrite (validate_in ho s e x O), (validate_in ho' s e x O'). reflexivity.
Qed.
Print Assumptions C31_hash_order_is_irrelevant.

(** An enum declared with the values [vs] admits exactly the words equal to one
    of them but for case and outer white space. *)
Theorem C31_enum_ignores_case_and_outer_space : forall req k vs x,
  (exists allowed w, fs_allowed (fschema_new_enum req k vs) = Some allowed /\ In w allowed /\ normal_of x w) <->
  exists v, In v vs /\ same_word x v.
Proof.
  intros req k vs x. cbn [fschema_new_enum fs_allowed]. split.
  - intros (al & w & [= <-] & I & N). apply in_map_iff in I as (v & <- & Hv). exists v. split; auto.
    exists (normal_text v). split; auto. apply normal_iff. reflexivity.
  - intros (v & Hv & w & N1 & N2). exists (map normal_text vs), w. apply normal_iff in N2. subst w.
    split; [reflexivity|]. split; [apply in_map; auto|exact N1].
Qed.
Print Assumptions C31_enum_ignores_case_and_outer_space.

(** A field the schema does not mention makes no difference. *)
Theorem C31_extra_fields_are_ignored : forall ho s e id v pre post, shuffles ho -> ~ In id (map fst (s_fields s)) ->
  e_fields e = pre ++ post ->
  validate ho s {| e_id := e_id e; e_type := e_type e; e_fields := pre ++ (id, v) :: post |} = validate ho s e.
Proof.
  intros ho s e id v pre post O N E. unfold validate. cbn [e_type]. f_equal.
  assert (G : forall i, i <> id -> get_field {| e_id := e_id e; e_type := e_type e; e_fields := pre ++ (id, v) :: post |} i = get_field e i).
  { intros i Hi. unfold get_field. rewrite E. cbn [e_fields]. clear E. induction pre as [|[j w] pre IH]; cbn [app find fst].
    - apply not_eq_sym, str_eqb_neq in Hi. rewrite Hi. reflexivity.
    - destruct (str_eqb j i); auto. }
  assert (A : forall p, In p (ho (s_fields s)) -> fst p <> id).
  { intros p Hp X. apply N. rewrite <- X. apply in_map. eapply Permutation_in; [apply O|exact Hp]. }
  induction (ho (s_fields s)) as [|[i f] l IH]; cbn [flat_map]; [reflexivity|].
  rewrite IH by (intros p Hp; apply A; right; auto). unfold validate_field at 1 3. rewrite G by (apply (A (i, f)); left; reflexivity). reflexivity.
Qed.
Print Assumptions C31_extra_fields_are_ignored.

(** Only the first value of a field that is given twice is checked. *)
Theorem C31_repeated_field_refuted : exists s e id f v, well_formed s /\ (forall ho, shuffles ho -> validate ho s e = []) /\
  In (id, f) (s_fields s) /\ In (id, v) (e_fields e) /\ ~ has_type v (fs_type f).
Proof.
  exists task_schema, {| e_id := L "task.a"; e_type := L "task";
                         e_fields := [(L "name", VStr (L "x")); (L "state", VEnum (L "done")); (L "name", VBool true)] |},
         (L "name"), (fschema_new TStr true 0), (VBool true).
  split; [exact (proj1 C31_errors_case)|]. split; [|split; [left; reflexivity|split; [right; right; left; reflexivity|intros H; inversion H]]].
  intros ho O. apply (C31_accepts_exactly_the_conforming ho); [exact O|].
  apply (C31_accepts_exactly_the_conforming fid); [exact fid_ok|]. vm_compute. reflexivity.
Qed.
Print Assumptions C31_repeated_field_refuted.

(** ** C32 *)
(** A schema that is read lists its declared fields in order of declaration; of
    two declarations of one name the later one counts. *)
Theorem C32_declaration_order : forall env path n s ho, shuffles ho -> to_schema env path n = Ok s ->
  exists name ds, sn_name n = Some name /\ s_type s = new_id name /\
    Forall2 (declares env path) (schema_fields n) ds /\ listing ho s = last_wins ds.
Proof.
  intros env path n s ho O H. apply to_schema_ok in H as (name & ds & k & l & N & T & F & La & E).
  exists name, ds. rewrite (laid_listing ho s k l O La). auto.
Qed.
Print Assumptions C32_declaration_order.
Theorem C32_distinct_names_are_all_listed : forall env path n s ho ds, shuffles ho -> to_schema env path n = Ok s ->
  Forall2 (declares env path) (schema_fields n) ds -> NoDup (map d_name ds) -> listing ho s = ds.
Proof.
  intros env path n s ho ds O H F N. destruct (C32_declaration_order env path n s ho O H) as (name & ds' & _ & _ & F' & E).
  assert (ds = ds') as <-. { eapply Forall2_fun; [|exact F|exact F']. intros b d d'. apply declares_det. }
  rewrite E. apply last_wins_distinct; auto.
Qed.
Print Assumptions C32_distinct_names_are_all_listed.
(** Whatever declares its fields is read, unless some value in it crashes the
    reader (see C30, C46). *)
Theorem C32_declarations_are_read : forall env path n name ds, sn_name n = Some name ->
  Forall2 (declares env path) (schema_fields n) ds -> Forall (no_panic_in env path) (schema_fields n) ->
  exists s, to_schema env path n = Ok s.
Proof. exact declares_to_schema. Qed.
Print Assumptions C32_declarations_are_read.
Definition person_node : snode :=
  {| sn_name := Some (L "Person");
     sn_blocks := [ {| nb_type := Some (L "field");
                       nb_body := Some [field_node (L "name") (text_node (L "size")); field_node (L "type") (text_node (L "enum"));
                                        field_node (L "allowed_values") (VNode (Some KList) [] [text_node (L " Big"); text_node (L "small")])] |};
                    {| nb_type := Some (L "other"); nb_body := Some [] |};
                    {| nb_type := Some (L "field");
                       nb_body := Some [field_node (L "required") (VNode (Some KBoolean) (L "true") []);
                                        field_node (L "type") (text_node (L "string")); field_node (L "name") (text_node (L "name"))] |} ] |}.
Example C32_case : exists s, to_schema env0 (L "a.firm") person_node = Ok s /\ s_type s = L "person" /\
  listing frev s = [ {| d_name := L "size"; d_type := TEnum; d_required := false; d_allowed := Some [L "big"; L "small"] |};
                     {| d_name := L "name"; d_type := TStr; d_required := true; d_allowed := None |} ].
Proof. eexists. split; [vm_compute; reflexivity|]. split; vm_compute; reflexivity. Qed.

(** The generated text is that of the syntax nodes taken to come back. *)
Theorem C32_text_is_the_rendering : forall ho o s, generate_schema ho o s = render_schema o (written_schema ho s).
Proof. exact schema_text. Qed.
Print Assumptions C32_text_is_the_rendering.

(** Written and read back, a schema has the same type and listing exactly when
    its type is normalised, and its allowed values are normalised and belong to
    enum fields. *)
Theorem C32_survives_exactly : forall env path ho ho' s, shuffles ho -> shuffles ho' -> well_formed s ->
  Forall plain_field (s_fields s) ->
  exists s', to_schema env path (written_schema ho s) = Ok s' /\
    (s_type s' = s_type s /\ listing ho' s' = listing ho s <->
     new_id (s_type s) = s_type s /\ Forall storable_field (s_fields s)).
Proof.
  intros env path ho ho' s O O' W P. destruct (schema_read_back env ho path s O W P) as (s' & k & l & E & T & La & D).
  exists s'. split; [exact E|]. rewrite T, (laid_listing ho' s' k l O' La), D. unfold listing.
  assert (X : map (fun p => decl_of (back 0 p)) (ordered_fields ho s) = map decl_of (ordered_fields ho s) <->
              Forall storable_field (s_fields s)).
  { transitivity (Forall storable_field (ordered_fields ho s));
      [|split; apply Permutation_Forall; [|symmetry]; exact (ordered_perm ho s O)].
    generalize (ordered_fields ho s). intros l1. induction l1 as [|p l1 IH]; cbn [map]; split.
    - constructor.
    - reflexivity.
    - intros H. assert (H1 : decl_of (back 0 p) = decl_of p) by exact (f_equal (hd (decl_of p)) H).
      assert (H2 := f_equal (@tl _) H). constructor; [apply (back_decl 0); exact H1|apply IH; exact H2].
    - intros H. inversion H as [|? ? H1 H2]; subst. f_equal; [apply back_decl; exact H1|apply IH; exact H2]. }
  rewrite X. reflexivity.
Qed.
Print Assumptions C32_survives_exactly.
(** In particular every schema that was read from DSL text survives. *)
Theorem C32_read_schemas_survive : forall env path path' n s ho ho', shuffles ho -> shuffles ho' ->
  to_schema env path n = Ok s -> Forall plain_field (s_fields s) ->
  exists s', to_schema env path' (written_schema ho s) = Ok s' /\ s_type s' = s_type s /\ listing ho' s' = listing ho s.
Proof.
  intros env path path' n s ho ho' O O' H P. destruct (read_schema_storable env path n s H) as [St W].
  destruct (C32_survives_exactly env path' ho ho' s O O' W P) as (s' & E & X). exists s'. split; [exact E|]. apply X.
  split; [|exact St]. apply to_schema_ok in H as (name & ds & k & l & _ & T & _). rewrite T. apply L_Ids.to_snake_idem.
Qed.
Print Assumptions C32_read_schemas_survive.
Example C32_survive_case : well_formed task_schema /\ Forall plain_field (s_fields task_schema) /\
  Forall storable_field (s_fields task_schema) /\ new_id (s_type task_schema) = s_type task_schema.
Proof.
  assert (PT : forall s, forallb (fun c => negb (Ascii.eqb c DQ) && negb (Ascii.eqb c LF)) s = true -> plain_text s).
  { intros s H. split; intros I; eapply forallb_forall in H; try exact I; vm_compute in H; discriminate. }
  split; [exact (proj1 C31_errors_case)|]. split; [|split; [|vm_compute; reflexivity]].
  - repeat constructor; try (apply PT; vm_compute; reflexivity); cbn [snd fs_allowed]; try discriminate.
    intros vs [= <-]. repeat constructor; apply PT; vm_compute; reflexivity.
  - repeat constructor; cbn [snd fs_allowed] in *; try discriminate.
    injection H as <-. repeat constructor; apply normal_iff; vm_compute; reflexivity.
Qed.

(** The builder lists fields in the order of the calls if the names differ. *)
Theorem C32_builder_order : forall ho t cs, shuffles ho -> NoDup (map bname cs) -> listing ho (bbuild t cs) = map bdecl cs.
Proof.
  intros ho t cs O N. destruct (bbuild_laid t cs N) as (l & La & D & _). rewrite (laid_listing _ _ _ _ O La). exact D.
Qed.
Print Assumptions C32_builder_order.
(** The metadata fields come last if there are at most 100 others. *)
Theorem C32_builder_metadata_last : forall ho t cs, shuffles ho -> NoDup (map bname cs ++ map d_name metadata) ->
  length cs <= 100 -> listing ho (with_metadata (bbuild t cs)) = map bdecl cs ++ metadata.
Proof.
  intros ho t cs O N K. assert (N1 : NoDup (map bname cs)) by exact (nodup_left _ _ N).
  destruct (bbuild_laid t cs N1) as (l & La & D & _ & Ks).
  destruct (metadata_laid _ _ _ La K) as (l' & k' & La' & D').
  - rewrite Ks. intros d Hd X. apply (in_map d_name) in Hd. clear - N Hd X. induction (map bname cs) as [|x l IH]; [destruct X|].
    cbn in N. inversion N as [|? ? A B]; subst. destruct X as [->|X]; [apply A, in_app_iff; auto|auto].
  - rewrite (laid_listing _ _ _ _ O La'), D', D. reflexivity.
Qed.
Print Assumptions C32_builder_metadata_last.
(** Naming a field twice gives two fields the same position: their order then
    depends on the hash map. *)
Theorem C32_builder_repeated_name_refuted : exists ho ho' t cs, shuffles ho /\ shuffles ho' /\
  map d_name (listing ho (bbuild t cs)) = [L "a"; L "b"] /\ map d_name (listing ho' (bbuild t cs)) = [L "b"; L "a"].
Proof.
  exists fid, frev, (L "t"), [BField true (L "a") TStr; BField true (L "a") TInt; BField true (L "b") TStr].
  split; [exact fid_ok|]. split; [exact frev_ok|]. split; vm_compute; reflexivity.
Qed.
Print Assumptions C32_builder_repeated_name_refuted.
(** With 101 fields the first metadata field ties with the last of them. *)
Theorem C32_builder_many_fields_refuted : exists ho ho' t cs, shuffles ho /\ shuffles ho' /\
  NoDup (map bname cs ++ map d_name metadata) /\ length cs = 101 /\
  listing ho (with_metadata (bbuild t cs)) <> listing ho' (with_metadata (bbuild t cs)).
Proof.
  exists fid, frev, (L "t"), (map (fun n => BField false (repeat "a"%char (S n)) TStr) (seq 0 101)).
  split; [exact fid_ok|]. split; [exact frev_ok|]. split; [|split; [reflexivity|]].
  - rewrite map_map. cbn [bname]. apply Permutation_NoDup with (1 := Permutation_app_comm _ _).
    assert (N : NoDup (map (fun n => repeat "a"%char (S n)) (seq 0 101))).
    { apply (NoDup_map_inv (@length ascii)). rewrite map_map.
      rewrite (map_ext _ S) by (intros n; apply repeat_length). rewrite seq_shift. apply seq_NoDup. }
    assert (A : forall c x, In (c :: x) (map (fun n => repeat "a"%char (S n)) (seq 0 101)) -> c = "a"%char).
    { intros c x H. apply in_map_iff in H as (n & E & _). injection E as <- _. reflexivity. }
    change (map d_name metadata) with [L "notes"; L "created_at"; L "updated_at"]. cbn [app].
    apply NoDup_cons; [|apply NoDup_cons; [|apply NoDup_cons; [|exact N]]]; cbn [In]; intros H;
      repeat match goal with H : _ \/ _ |- _ => destruct H as [H|H]; [discriminate H|] end;
      apply A in H; discriminate H.
  - intros H. apply (f_equal (fun l => map d_name (skipn 100 l))) in H. vm_compute in H. discriminate.
Qed.
Print Assumptions C32_builder_many_fields_refuted.
Example C32_builder_case : exists cs, NoDup (map bname cs ++ map d_name metadata) /\ length cs <= 100 /\ 2 <= length cs.
Proof.
  exists [BField true (L "name") TStr; BEnum false (L "state") [L "open"]]. split; [|cbn; lia].
  repeat constructor; cbn; intuition discriminate.
Qed.

(** ** C47 *)
(** The text of an entity is that of the syntax nodes it is taken to come back
    as: in particular a list is its items' texts between brackets. *)
Theorem C47_text_is_the_rendering : forall env o es,
  generate_dsl env o es = render_entities o (map (written_entity env o) es) /\
  forall e f, In e es -> In f (en_fields (written_entity env o e)) -> forall n, fn_value f = Some n -> well_rendered n.
Proof.
  intros env o es. split; [apply entities_text|]. intros e f _ H n E. unfold written_entity in H. cbn [en_fields] in H.
  apply in_map_iff in H as ([i v] & <- & _). injection E as <-. apply written_rendered.
Qed.
Print Assumptions C47_text_is_the_rendering.

