(** Property C71: currency amounts in queries. *)
From Coq Require Import Lia.
From Verif Require Import S_Graph M_Dsl S_Query S_QText L_Str L_Filter L_QParse S_Round S_Amount L_Amount L_Amount2 P_Query P_QParse.
Close Scope Z_scope.

Lemma read_amount f o t n c : identifier f -> number_text t -> parse_f64 t = Some n -> currency_text c ->
  read_query (L "from * | where " ++ f ++ L " " ++ operator_text o ++ L " " ++ t ++ L " " ++ c) = Ok (one_condition f o (FCur n c)).
Proof.
  intros I N E C.
  set (k := {| pc_field := RfReg f; pc_op := o; pc_value := PCur n c |}).
  set (q := {| pq_from := RAny; pq_ops := [PoWhere [k] CAnd]; pq_agg := None |}).
  assert (P : parse_query (join (L " ") (L "from" :: L "*" :: (L "|" :: (L "where" :: ([f] ++ operator_text o :: [t; c]) ++ []) ++ []) ++ [])) = Ok q).
  { apply C21_single_blanks; [reflexivity| |reflexivity|].
    - apply os_cons; [|constructor]. eapply (ot_where k [] CAnd []); auto; [|constructor|intros ? []].
      exists [f], [t; c]. repeat split; auto. now apply vt_cur.
    - intros u H F. cbn in H. pose proof (time_form_blank u F) as (B & x & r & X & D).
      destruct H as [<-|[<-|[<-|[<-|[<-|[<-|[]]]]]]]; try (injection X as <- _; discriminate).
      + exact (identifier_not_time f I F).
      + destruct o; injection X as <- _; discriminate.
      + exact (number_not_time t N F).
      + destruct C as (_ & A & _). rewrite X in A. inversion A as [|? ? A1 _]. subst.
        destruct x as [[] [] [] [] [] [] [] []]; discriminate. }
  assert (X : L "from * | where " ++ f ++ L " " ++ operator_text o ++ L " " ++ t ++ L " " ++ c =
    join (L " ") (L "from" :: L "*" :: (L "|" :: (L "where" :: ([f] ++ operator_text o :: [t; c]) ++ []) ++ []) ++ [])).
  { cbn [app join]. destruct o; reflexivity. }
  rewrite X. unfold read_query. rewrite P. reflexivity.
Qed.

(** Amounts that differ from the one written, and have no more decimals, are
    set against it as written by all six operators... *)
Theorem C71_other_amounts_compare_as_written : forall x f d c, retains x -> identifier f -> currency_text c -> ordinary_amount d ->
  exists w, (forall o, condition_read (amount_query f o d c) {| c_field := FReg (new_id f); c_op := o; c_value := w |}) /\
    forall a, d_scale a <= d_scale d -> dec_cmp a d <> Eq -> ordered_by x (VCur a c) w (dec_cmp a d).
Proof.
  intros x f d c R I C O. destruct (amount_read d) as (den & D & N & P). exists (FCur (amount_float d den) c). split.
  - intros o. exact (read_amount f o (show_dec d) _ c I N P C).
  - destruct (amount_close x d den R O D) as (d' & E & H & _). intros a S Q.
    rewrite <- (amount_against d d' H a S Q). exact (ordered_currency x a c _ d' E).
Qed.
Print Assumptions C71_other_amounts_compare_as_written.

(** ... and an amount equal to it is found equal if and only if it is a whole
    number of halves (one decimal), quarters (two decimals), eighths... *)
Theorem C71_equal_amount_found_iff : forall x f d c e a, retains x -> identifier f -> currency_text c -> ordinary_amount d ->
  get_field e (new_id f) = Some (VCur a c) -> dec_cmp a d = Eq ->
  exists k k', condition_read (amount_query f OpEq d c) k /\ condition_read (amount_query f OpNe d c) k' /\
    (binary_amount d -> matches x k e = Ok true /\ matches x k' e = Ok false) /\
    (~ binary_amount d -> matches x k e = Ok false /\ matches x k' e = Ok true).
Proof.
  intros x f d c e a R I C O G Q. destruct (amount_read d) as (den & D & N & P).
  destruct (amount_close x d den R O D) as (d' & E & _ & H). pose proof (amount_equal d d' a Q) as A. rewrite H in A.
  destruct (ordered_currency x a c (amount_float d den) d' E) as (Eq1 & Ne1 & _).
  exists {| c_field := FReg (new_id f); c_op := OpEq; c_value := FCur (amount_float d den) c |},
         {| c_field := FReg (new_id f); c_op := OpNe; c_value := FCur (amount_float d den) c |}.
  split; [exact (read_amount f OpEq (show_dec d) _ c I N P C)|]. split; [exact (read_amount f OpNe (show_dec d) _ c I N P C)|].
  unfold matches. cbn [c_field c_op c_value]. rewrite G, Eq1, Ne1.
  split; intros B.
  - apply A in B. rewrite B. split; reflexivity.
  - destruct (dec_cmp a d') eqn:K; [exfalso; apply B, A; reflexivity| |]; split; reflexivity.
Qed.
Print Assumptions C71_equal_amount_found_iff.

(** Finding: 19.99 EUR is not found by [price == 19.99 EUR], and is by
    [price != 19.99 EUR]. *)
Definition eur : str := L "EUR".
Definition cents (n : Z) : dec := {| d_mant := n; d_scale := 2 |}.
Definition priced (n : Z) : entity := {| e_id := L "item.pen"; e_type := L "item"; e_fields := [(L "price", VCur (cents n) eur)] |}.
Lemma eur_text : currency_text eur.
Proof. split; [reflexivity|]. split; [repeat constructor|]. split; discriminate. Qed.
Lemma price_identifier : identifier (L "price").
Proof. exists "p"%char, (L "rice"). split; [reflexivity|]. split; [left; reflexivity|]. repeat constructor. Qed.
Theorem C71_equal_amount_refuted : forall x, retains x -> exists k k',
  condition_read (L "from * | where price == 19.99 EUR") k /\ condition_read (L "from * | where price != 19.99 EUR") k' /\
  matches x k (priced 1999) = Ok false /\ matches x k' (priced 1999) = Ok true.
Proof.
  intros x R.
  destruct (C71_equal_amount_found_iff x (L "price") (cents 1999) eur (priced 1999) (cents 1999) R price_identifier eur_text) as (k & k' & K & K' & _ & F).
  - split; [cbn; lia|reflexivity].
  - reflexivity.
  - reflexivity.
  - exists k, k'. split; [exact K|]. split; [exact K'|]. apply F. intros [z Z]. cbn in Z. lia.
Qed.
Print Assumptions C71_equal_amount_refuted.
(** Whole amounts are found. *)
Theorem C71_whole_amounts_are_found : forall x f d c e a, retains x -> identifier f -> currency_text c -> ordinary_amount d ->
  d_scale d = 0 -> get_field e (new_id f) = Some (VCur a c) ->
  exists k, condition_read (amount_query f OpEq d c) k /\ (dec_cmp a d = Eq -> matches x k e = Ok true) /\
    (d_scale a = 0 -> dec_cmp a d <> Eq -> matches x k e = Ok false).
Proof.
  intros x f d c e a R I C O S G. destruct (C71_other_amounts_compare_as_written x f d c R I C O) as (w & W & H).
  exists {| c_field := FReg (new_id f); c_op := OpEq; c_value := w |}. split; [apply W|]. split.
  - intros Q. destruct (C71_equal_amount_found_iff x f d c e a R I C O G Q) as (k & k' & K & _ & F & _).
    pose proof (W OpEq) as W1. unfold condition_read in *. rewrite W1 in K. injection K as <-. apply F. unfold binary_amount. rewrite S. apply Z.divide_1_l.
  - intros Sa Q. destruct (H a) as (E & _); [lia|exact Q|]. unfold matches. cbn [c_field c_op c_value]. rewrite G, E. destruct (dec_cmp a d); congruence.
Qed.
Print Assumptions C71_whole_amounts_are_found.
(** The code must be the field's to the letter; otherwise no operator finds the
    amount, not even [!=]. *)
Theorem C71_other_codes_never_match : forall x f o d c c' e a, identifier f -> currency_text c' -> c <> c' ->
  get_field e (new_id f) = Some (VCur a c) ->
  exists k, condition_read (amount_query f o d c') k /\ matches x k e = Ok false.
Proof.
  intros x f o d c c' e a I C N G. destruct (amount_read d) as (den & D & T & P).
  exists {| c_field := FReg (new_id f); c_op := o; c_value := FCur (amount_float d den) c' |}.
  split; [exact (read_amount f o (show_dec d) _ c' I T P C)|]. unfold matches. cbn [c_field c_op c_value]. rewrite G. cbn.
  apply str_eqb_neq in N. rewrite N. reflexivity.
Qed.
Print Assumptions C71_other_codes_never_match.

(** One conversion with the properties used, and what comes of it. *)
Example C71_case : retains (retaining ex_ext) /\ ordinary_amount (cents 1999) /\ ~ binary_amount (cents 1999) /\ binary_amount (cents 1975) /\
  show_dec (cents 1975) = L "19.75" /\ currency_text eur /\ identifier (L "price") /\
  (exists k, condition_read (L "from * | where price == 19.75 EUR") k /\
    matches (retaining ex_ext) k (priced 1975) = Ok true /\ matches (retaining ex_ext) k (priced 1974) = Ok false) /\
  (exists k, condition_read (L "from * | where price <= 19.99 EUR") k /\
    matches (retaining ex_ext) k (priced 1998) = Ok true /\ matches (retaining ex_ext) k (priced 1999) = Ok false /\ matches (retaining ex_ext) k (priced 2000) = Ok false) /\
  (exists k, condition_read (L "from * | where price >= 19.99 EUR") k /\ matches (retaining ex_ext) k (priced 1999) = Ok true) /\
  (exists k, condition_read (L "from * | where price != 19.99 eur") k /\ matches (retaining ex_ext) k (priced 1) = Ok false).
Proof.
  split; [apply retaining_retains|]. split; [split; [cbn; lia|reflexivity]|]. split; [intros [z Z]; cbn in Z; lia|].
  split; [exists 79%Z; reflexivity|]. split; [reflexivity|]. split; [exact eur_text|]. split; [exact price_identifier|].
  split; [|split; [|split]]; eexists; (split; [vm_compute; reflexivity|]); repeat split; vm_compute; reflexivity.
Qed.
