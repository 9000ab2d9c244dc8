(** Lemmas for C80. *)
From Coq Require Import Lia.
From Verif Require Import S_Graph S_Query S_More L_Str L_Graph L_Sort L_Filter L_Order L_Related L_Exec L_Laws.
Close Scope Z_scope.

Lemma nodup_rest {A} (r r' : list A) : NoDup r -> NoDup r' -> incl r r' ->
  exists new, Permutation r' (new ++ r) /\ forall e, In e new <-> In e r' /\ ~ In e r.
Proof.
  revert r'; induction r as [|a r IH]; intros r' N N' I.
  - exists r'. rewrite app_nil_r. split; [reflexivity|]. intros e. cbn. tauto.
  - inversion N as [|? ? Na Nr]; subst. destruct (in_split a r' (I a (or_introl eq_refl))) as (u & v & ->).
    assert (Nuv : NoDup (u ++ v) /\ ~ In a (u ++ v)) by (split; [exact (NoDup_remove_1 _ _ _ N')|exact (NoDup_remove_2 _ _ _ N')]). destruct Nuv as [Nuv Na'].
    destruct (IH (u ++ v) Nr Nuv) as (new & P & E).
    { intros b B. specialize (I b (or_intror B)). apply in_app_or in I as [I|[<-|I]]; [apply in_or_app; auto|contradiction|apply in_or_app; auto]. }
    exists new. split.
    + transitivity (a :: u ++ v); [symmetry; apply Permutation_middle|]. transitivity (a :: new ++ r); [now constructor|apply Permutation_middle].
    + intros e. rewrite E, !in_app_iff. cbn [In]. split.
      * intros ([H|H] & H'); (split; [tauto|]); intros [<-|H'']; [apply Na', in_or_app; auto| |apply Na', in_or_app; auto|]; contradiction.
      * intros ([H|[<-|H]] & H'); [| |]; (split; [tauto|]); intuition.
Qed.

Section one.
  Context (x : ext) (g : graph) (es : list entity) (B : built g es) (ho : hash_order) (O : orders ho).
  Lemma select_in s l e : select_from g ho s = Ok l -> (In e l <-> In e es /\ selected s e).
  Proof.
    destruct s as [t|]; intros H; cbn [selected].
    - rewrite (select_type g es B ho t) in H. destruct (existsb _ es); [|discriminate]. injection H as <-. rewrite filter_In, str_eqb_eq. reflexivity.
    - pose proof (select_all g es B ho l O H) as P. split; [intros I; split; [eapply Permutation_in; eauto|exact Logic.I]|].
      intros [I _]. eapply Permutation_in; [symmetry; exact P|exact I].
  Qed.
  Lemma ops_in ops : no_limit ops -> no_related ops -> forall n l r, exec_ops x g ho n ops l = Ok r -> forall e, In e r <-> In e l /\ meets x ops e.
  Proof.
    induction ops as [|o ops IH]; intros NL NR n l r E e; cbn [exec_ops] in E.
    - injection E as <-. split; [intros I; split; [exact I|intros c []]|tauto].
    - destruct (exec_op x g ho n o l) as [m|] eqn:M; [|discriminate]. cbn [bind] in E.
      assert (NL' : no_limit ops) by (intros k H; apply (NL k); now right). assert (NR' : no_related ops) by (intros d t H; apply (NR d t); now right).
      rewrite (IH NL' NR' _ _ _ E e). destruct o as [c|d t|f d|k]; cbn [exec_op] in M.
      + apply where_ok in M as [_ K]. rewrite (keeps_in _ _ _ e K). split.
        * intros ((I & S) & Me). split; [exact I|]. intros c' [[= <-]|H]; auto.
        * intros (I & Me). repeat split; auto; [apply Me; now left|]. intros c' H. apply Me. now right.
      + destruct (NR d t). now left.
      + injection M as <-. unfold order_step. split.
        * intros (I & Me). split; [eapply Permutation_in; [symmetry; apply sort_perm|exact I]|]. intros c' [H|H]; [discriminate|auto].
        * intros (I & Me). split; [eapply Permutation_in; [apply sort_perm|exact I]|]. intros c' H. apply Me. now right.
      + destruct (NL k). now left.
  Qed.
  Lemma answers_in s ops r : no_limit ops -> no_related ops -> answers x g ho s ops r ->
    NoDup r /\ forall e, In e r <-> In e es /\ selected s e /\ meets x ops e.
  Proof.
    intros NL NR A. split.
    - destruct (execute_good x g es B ho s ops r O A) as [_ N]. exact (nodup_of_ids e_id _ N).
    - apply answers_ops in A as (start & F & E). intros e. rewrite (ops_in ops NL NR _ _ _ E e), (select_in s start e F). tauto.
  Qed.
End one.

(** ** More entities *)
Section more.
  Context (x : ext) (g g' : graph) (es es' : list entity) (B : built g es) (B' : built g' es') (I : incl es es') (ho ho' : hash_order) (O : orders ho) (O' : orders ho').
  Lemma select_more s l l' : select_from g ho s = Ok l -> select_from g' ho' s = Ok l' -> incl l l'.
  Proof. intros H H' e J. apply (select_in g es B ho O _ _ _ H) in J. apply (select_in g' es' B' ho' O' _ _ _ H'). destruct J. auto. Qed.
  Lemma within_more n a b : within (fun a b => In b es /\ neighbour None a b) n a b -> within (fun a b => In b es' /\ neighbour None a b) n a b.
  Proof. induction 1 as [|n a b c [H1 H2] W IH]; [constructor|]. econstructor; [|exact IH]. auto. Qed.
  Lemma ops_more ops : no_limit ops -> forall n n' l l' r r', incl l l' -> incl l es -> incl l' es' ->
    exec_ops x g ho n ops l = Ok r -> exec_ops x g' ho' n' ops l' = Ok r' -> incl r r'.
  Proof.
    induction ops as [|o ops IH]; intros NL n n' l l' r r' Il Ie Ie' E E'; cbn [exec_ops] in E, E'.
    - injection E as <-. injection E' as <-. exact Il.
    - destruct (exec_op x g ho n o l) as [m|] eqn:M; [|discriminate]. destruct (exec_op x g' ho' n' o l') as [m'|] eqn:M'; [|discriminate]. cbn [bind] in E, E'.
      assert (NL' : no_limit ops) by (intros k H; apply (NL k); now right).
      assert (K : incl m m' /\ incl m es /\ incl m' es').
      { destruct o as [c|d t|f d|k]; cbn [exec_op] in M, M'.
        - apply where_ok in M as [_ K], M' as [_ K']. repeat split; intros e J.
          + apply (keeps_in _ _ _ e K) in J as [J S]. apply (keeps_in _ _ _ e K'). auto.
          + apply (keeps_in _ _ _ e K) in J as [J S]. auto.
          + apply (keeps_in _ _ _ e K') in J as [J S]. auto.
        - injection M as <-. injection M' as <-. destruct d as [|d]; [now cbn|].
          assert (D : 1 <= S d) by lia. repeat split; intros e J.
          + apply (related_in g es B ho O) in J as (T & J & a & Ja & W); auto. apply (related_in g' es' B' ho' O'); auto. split; [exact T|]. split; [auto|].
            exists a. split; [auto|]. exact (within_more _ _ _ W).
          + apply (related_in g es B ho O) in J as (T & J & _); auto.
          + apply (related_in g' es' B' ho' O') in J as (T & J & _); auto.
        - injection M as <-. injection M' as <-. unfold order_step. repeat split; intros e J; apply (Permutation_in _ (Permutation_sym (sort_perm _ _))) in J; auto.
          eapply Permutation_in; [apply sort_perm|auto].
        - destruct (NL k). now left. }
      destruct K as (K1 & K2 & K3). exact (IH NL' _ _ _ _ _ _ K1 K2 K3 E E').
  Qed.
  Lemma answers_more s ops r r' : no_limit ops -> answers x g ho s ops r -> answers x g' ho' s ops r' -> incl r r'.
  Proof.
    intros NL A A'. apply answers_ops in A as (l & F & E), A' as (l' & F' & E'). refine (ops_more ops NL _ _ _ _ _ _ (select_more s l l' F F') _ _ E E').
    - apply (select_good g es B ho s l O F).
    - apply (select_good g' es' B' ho' s l' O' F').
  Qed.
End more.
