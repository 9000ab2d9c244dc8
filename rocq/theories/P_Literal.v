(** C76: what the values of the source files stand for. *)
From Coq Require Import Lia ZArith.
From Verif Require Import M_Graph M_Float S_Round S_Nearest L_Nearest S_Dsl M_Text M_Num M_Time M_Dsl L_DslVal S_Syntax S_Whole L_Whole S_Alike S_Literal L_Literal P_Dsl.
From Verif Require P_Whole.
Close Scope Z_scope.

(** A literal of the documented syntax, in a file of the workspace, is read as
    exactly what it stands for; it is refused if it stands for nothing. *)
Theorem C76_literals : forall env ds name k t v, Forall plain_component ds -> plain_component name -> literal_syntax k t ->
  from_node env (file_path ds name) (VNode (Some k) t []) <> Panic ->
  (stored env (file_path ds name) k t v <-> denotes env (file_path ds name) k t v).
Proof.
  intros env ds name k t v D N LS NP. rewrite <- (denotes_iff env ds name k t v D N LS NP). unfold stored. split; [intros [_ H]; exact H|auto].
Qed.
Print Assumptions C76_literals.

(** So are lists. *)
Theorem C76_values : forall env ds name vn v, Forall plain_component ds -> plain_component name -> value_syntax vn ->
  from_node env (file_path ds name) vn <> Panic ->
  (read_node env (file_path ds name) vn v <-> stands_for env (file_path ds name) vn v).
Proof. intros env ds name vn v D N VS NP. exact (stands_iff env ds name vn D N VS v NP). Qed.
Print Assumptions C76_values.

(** There is nothing else a value could stand for. *)
Theorem C76_one_meaning : forall env ds name k t v v', Forall plain_component ds -> plain_component name -> literal_syntax k t ->
  from_node env (file_path ds name) (VNode (Some k) t []) <> Panic ->
  denotes env (file_path ds name) k t v -> denotes env (file_path ds name) k t v' -> v = v'.
Proof.
  intros env ds name k t v v' D N LS NP H H'. apply (denotes_iff env ds name k t _ D N LS NP) in H as (p & P & ->), H' as (p' & P' & ->). congruence.
Qed.
Print Assumptions C76_one_meaning.

(** Of the decimals that a float can hold none is nearer to the literal than the
    one it is read as, and there is only one that IEEE 754 allows. *)
Theorem C76_decimals : forall env path t neg n k f, number_literal t neg n k -> 0 < k ->
  (from_node env path (VNode (Some KNumber) t []) = Ok (PFloat f) <->
   nearest_double (with_sign neg n) (Z.to_pos (10 ^ Z.of_nat k)) f /\ negative f = neg).
Proof.
  intros env path t neg n k f H K. cbn [from_node]. rewrite (number_whole _ _ _ _ H). destruct k as [|k]; [lia|]. cbn [Nat.eqb].
  assert (NN : (0 <= n)%Z) by (inversion H; subst; eapply numeral_nonneg; eassumption). pose proof (ratio_nearest neg n (places (S k)) NN) as R. pose proof (ratio_sign neg n (places (S k)) NN) as Sg. split.
  - intros [= <-]. split; [exact R|exact Sg].
  - intros [ND E]. do 2 f_equal. apply (nearest_once _ _ _ _ R ND). congruence.
Qed.
Print Assumptions C76_decimals.

(** In a workspace of such files: the fields of the entity that a block declares
    are what the values in it stand for, the first where a name comes twice. *)
Theorem C76_fields : forall c w d st r s bs t i fs, built c w d st -> source_of w d r s -> file_syntax bs s -> Forall plain_component r ->
  In (EntityBlock {| en_type := Some t; en_id := Some i; en_fields := fs |}) bs ->
  exists e, In e (b_entities (st_build st)) /\ e_id e = compose_entity_id t i /\ e_type e = t /\
    forall f v, get_field e f = Some v <-> exists vn, first_field fs f vn /\ stands_for (c_env c) (path_text r) vn v.
Proof.
  intros c w d st r s bs t i fs B SO FS PL I. destruct (built_fields c w d st r s bs t i fs B SO FS I) as (e & Ie & Id & Ty & RD & H). exists e. split; [exact Ie|]. split; [exact Id|]. split; [exact Ty|].
  intros f v. rewrite H. destruct SO as [_ (r' & n & -> & _)]. apply Forall_app in PL as [PL PN]. inversion PN; subst. split.
  - intros (vn & p & FF & VS & P & V). exists vn. split; [exact FF|]. apply (stands_iff (c_env c) r' n vn); auto; [change (file_path r' n) with (path_text (r' ++ [n])); congruence|eauto].
  - intros (vn & FF & SF). destruct (RD vn f FF) as (VS & p & P). apply (stands_iff (c_env c) r' n vn) in SF as (p' & P' & V); auto; [|change (file_path r' n) with (path_text (r' ++ [n])); congruence].
    exists vn, p'. auto.
Qed.
Print Assumptions C76_fields.

(** Finding: the text of an enumeration value or of a path loses its end where it
    ends like the word before the quotes. *)
Theorem C76_text_kept_refuted : forall env path,
  stored env path KEnum (L "enum""my_enum""") (VEnum (L "my_")) /\ stored env (L "main.firm") KPath (L "path""bin/path""") (VPath (L "./bin")).
Proof.
  intros env path. split; (split; [|eexists; split; reflexivity]).
  - apply (syn_enum (L "my_enum")). split; cbn; intuition discriminate.
  - apply (syn_path (L "bin/path")). split; cbn; intuition discriminate.
Qed.
Print Assumptions C76_text_kept_refuted.

(** A file "a/b.firm" with all kinds of literals. *)
Definition literals14 : list (vkind * str * value) :=
  [ (KBoolean, L "false", VBool false);
    (KString, [DQ] ++ L "two words" ++ [DQ], VStr (L "two words"));
    (KString, q3 ++ [LF] ++ L "  one" ++ [LF] ++ L "    two" ++ [LF] ++ L "  " ++ q3, VStr (L "one" ++ [LF] ++ L "  two"));
    (KNumber, L "-007", VInt (-7)%Z);
    (KNumber, L "0.5", VFloat (S754_finite false 4503599627370496 (-53)));
    (KNumber, L "-0.0", VFloat (S754_zero true));
    (KCurrency, L "-12.50 EUR", VCur {| d_mant := (-1250)%Z; d_scale := 2 |} (L "EUR"));
    (KReference, L "Person.JaneDoe", VRef (REntity (L "person.jane_doe")));
    (KReference, L "person.jane.Email", VRef (RField (L "person.jane") (L "Email")));
    (KDate, L "2024-02-29", VDate {| dt_local := 1709164800%Z; dt_nanos := 0; dt_off := local_offset env0 |});
    (KDateTime, L "2024-02-29 at 9:05", VDate {| dt_local := 1709197500%Z; dt_nanos := 0; dt_off := local_offset env0 |});
    (KDateTime, L "2024-02-29 at 21:05 UTC-3", VDate {| dt_local := 1709240700%Z; dt_nanos := 0; dt_off := (-10800)%Z |});
    (KPath, L "path""../c/d.pdf""", VPath (L "./c/d.pdf"));
    (KEnum, L "enum""open""", VEnum (L "open")) ].
Example C76_case : forall k t v, In (k, t, v) literals14 -> literal_syntax k t /\
  from_node env0 (file_path [L "a"] (L "b.firm")) (VNode (Some k) t []) <> Panic /\
  denotes env0 (file_path [L "a"] (L "b.firm")) k t v.
Proof.
  assert (PA : plain_component (L "a") /\ plain_component (L "b.firm")) by (split; (split; [discriminate|]; split; [discriminate|]; split; [discriminate|cbn; intuition discriminate])).
  assert (DG : forall s, forallb is_digit s = true -> digits_syntax (length s) s) by (intros s H; split; [reflexivity|]; apply Forall_forall, forallb_forall, H).
  assert (NS : forall c r, is_alpha c = true -> forallb (fun x => is_alpha x || is_digit x) r = true -> name_syntax (c :: r)).
  { intros c r A F. exists c, r. split; [reflexivity|]. split; [now left|]. apply Forall_forall. intros x I. rewrite forallb_forall in F. apply F, orb_true_iff in I. tauto. }
  assert (NM : forall sg a, sg = [] \/ sg = L "-" -> a <> [] -> forallb is_digit a = true -> number_syntax (sg ++ a ++ [])).
  { intros sg a H N D. exists sg, a, []. repeat split; auto. exists (length a). split; [destruct a; [congruence|cbn; lia]|now apply DG]. }
  assert (DM : forall sg a b, sg = [] \/ sg = L "-" -> a <> [] -> b <> [] -> forallb is_digit a = true -> forallb is_digit b = true -> number_syntax (sg ++ a ++ L "." ++ b)).
  { intros sg a b H N N' D D'. exists sg, a, (L "." ++ b). repeat split; auto; [exists (length a); split; [destruct a; [congruence|cbn; lia]|now apply DG]|].
    right. exists b, (length b). split; [reflexivity|]. split; [destruct b; [congruence|cbn; lia]|now apply DG]. }
  assert (DT : date_syntax (L "2024-02-29")) by (exists (L "2024"), (L "02"), (L "29"); split; [reflexivity|]; split; [|split]; apply DG; reflexivity).
  intros k t v I.
  assert (LS : literal_syntax k t).
  { cbn [literals14 In] in I. repeat (destruct I as [[= <- <- <-]|I]); [| | | | | | | | | | | | | |contradiction].
    - exact (syn_bool false).
    - apply (syn_string (L "two words")). split; cbn; intuition discriminate.
    - apply (syn_lines ([LF] ++ L "  one" ++ [LF] ++ L "    two" ++ [LF] ++ L "  ")). apply no_quote_up_to. cbn; intuition discriminate.
    - apply syn_number. exact (NM (L "-") (L "007") (or_intror eq_refl) ltac:(discriminate) eq_refl).
    - apply syn_number. exact (DM [] (L "0") (L "5") (or_introl eq_refl) ltac:(discriminate) ltac:(discriminate) eq_refl eq_refl).
    - apply syn_number. exact (DM (L "-") (L "0") (L "0") (or_intror eq_refl) ltac:(discriminate) ltac:(discriminate) eq_refl eq_refl).
    - apply (syn_currency (L "-12.50") (L "EUR")); [exact (DM (L "-") (L "12") (L "50") (or_intror eq_refl) ltac:(discriminate) ltac:(discriminate) eq_refl eq_refl)|split; [reflexivity|repeat constructor]].
    - apply (syn_entity (L "Person") (L "JaneDoe")); apply NS; reflexivity.
    - apply (syn_field (L "person") (L "jane") (L "Email")); apply NS; reflexivity.
    - now apply syn_date.
    - apply (syn_local (L "2024-02-29") (L "9:05")); [exact DT|]. exists (L "9"), (L "05"). split; [reflexivity|]. split; [left|]; apply DG; reflexivity.
    - apply (syn_zoned (L "2024-02-29") (L "21:05") (L "UTC-3")); [exact DT| |right; exists (L "-"), (L "3"), 1; split; [reflexivity|]; split; [now right|]; split; [lia|apply DG; reflexivity]].
      exists (L "21"), (L "05"). split; [reflexivity|]. split; [right|]; apply DG; reflexivity.
    - apply (syn_path (L "../c/d.pdf")). split; cbn; intuition discriminate.
    - apply (syn_enum (L "open")). split; cbn; intuition discriminate. }
  split; [exact LS|].
  assert (RD : exists p, from_node env0 (file_path [L "a"] (L "b.firm")) (VNode (Some k) t []) = Ok p /\ v = to_value p).
  { assert (M : map (fun x => match from_node env0 (file_path [L "a"] (L "b.firm")) (VNode (Some (fst (fst x))) (snd (fst x)) []) with Ok p => Some (to_value p) | _ => None end) literals14
                = map (fun x => Some (snd x)) literals14) by (vm_compute; reflexivity).
    clear LS. revert I M. generalize literals14. intros l I M. induction l as [|x l IH]; [destruct I|]. cbn [map] in M. destruct I as [-> | I].
    - apply (f_equal (hd None)) in M. cbn [hd fst snd] in M. destruct (from_node env0 (file_path [L "a"] (L "b.firm")) (VNode (Some k) t [])) as [p| |]; try discriminate M.
      exists p. split; [reflexivity|]. injection M as M. symmetry. exact M.
    - apply IH; [exact I|]. exact (f_equal (@tl _) M). }
  assert (NP : from_node env0 (file_path [L "a"] (L "b.firm")) (VNode (Some k) t []) <> Panic) by (destruct RD as (p & P & _); congruence).
  split; [exact NP|]. apply C76_literals; [constructor; [apply PA|constructor]|apply PA|exact LS|exact NP|]. split; [exact LS|exact RD].
Qed.
