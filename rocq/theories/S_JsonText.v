(** The grammar of JSON (RFC 8259), with what each text stands for. *)
From Verif Require Export M_Json S_Json S_Whole.
Close Scope Z_scope.

Definition white (s : str) : Prop := Forall (fun c => In c [" "%char; "009"%char; "010"%char; "013"%char]) s.
(** A hexadecimal digit. *)
Definition hex (c : ascii) (n : N) : Prop :=
  exists i, (nth_error (L "0123456789abcdef") i = Some c \/ nth_error (L "0123456789ABCDEF") i = Some c) /\ n = N.of_nat i.
Definition four_hex (w : str) (n : N) : Prop :=
  exists a b c d na nb nc nd, w = [a; b; c; d] /\ hex a na /\ hex b nb /\ hex c nc /\ hex d nd /\
    n = (na * 4096 + nb * 256 + nc * 16 + nd)%N.
(** The bytes of a character in UTF-8. *)
Inductive in_utf8 (n : N) : str -> Prop :=
| one_byte : (n < 128)%N -> in_utf8 n [ascii_of_N n]
| two_bytes a b : (128 <= n < 2048)%N -> (b < 64)%N -> n = (a * 64 + b)%N -> in_utf8 n [ascii_of_N (192 + a); ascii_of_N (128 + b)]
| three_bytes a b c : (2048 <= n < 65536)%N -> (b < 64)%N -> (c < 64)%N -> n = (a * 4096 + b * 64 + c)%N ->
    in_utf8 n [ascii_of_N (224 + a); ascii_of_N (128 + b); ascii_of_N (128 + c)]
| four_bytes a b c d : (65536 <= n < 1114112)%N -> (b < 64)%N -> (c < 64)%N -> (d < 64)%N -> n = (a * 262144 + b * 4096 + c * 64 + d)%N ->
    in_utf8 n [ascii_of_N (240 + a); ascii_of_N (128 + b); ascii_of_N (128 + c); ascii_of_N (128 + d)].
Definition short_escapes : list (ascii * ascii) :=
  [(""""%char, """"%char); ("\"%char, "\"%char); ("/"%char, "/"%char); ("b"%char, "008"%char); ("f"%char, "012"%char);
   ("n"%char, "010"%char); ("r"%char, "013"%char); ("t"%char, "009"%char)].
(** What is between the quotes, and what it stands for. *)
Inductive string_text : str -> str -> Prop :=
| string_end : string_text [] []
| string_plain c t s : c <> """"%char -> c <> "\"%char -> (32 <= N_of_ascii c)%N -> string_text t s -> string_text (c :: t) (c :: s)
| string_short e c t s : In (e, c) short_escapes -> string_text t s -> string_text ("\"%char :: e :: t) (c :: s)
| string_code w n u t s : four_hex w n -> (n < 55296 \/ 57343 < n)%N -> in_utf8 n u -> string_text t s ->
    string_text (L "\u" ++ w ++ t) (u ++ s)
| string_pair w n w' m k u t s : four_hex w (55296 + n) -> (n < 1024)%N -> four_hex w' (56320 + m) -> (m < 1024)%N ->
    k = (65536 + n * 1024 + m)%N -> in_utf8 k u -> string_text t s ->
    string_text (L "\u" ++ w ++ L "\u" ++ w' ++ t) (u ++ s).

(** A value, with blanks around it. *)
Inductive json_text : str -> jv -> Prop :=
| json_blanks a t b v : white a -> json_text t v -> white b -> json_text (a ++ t ++ b) v
| json_null : json_text (L "null") JvNull
| json_true : json_text (L "true") (JvBool true)
| json_false : json_text (L "false") (JvBool false)
| json_string t s : string_text t s -> json_text (L """" ++ t ++ L """") (JvStr s)
| json_natural t n : whole t -> numeral t n -> json_text t (JvInt n)
| json_negative t n : whole t -> numeral t n -> n <> 0%Z -> json_text (L "-" ++ t) (JvInt (- n))
| json_number t f : number_text t -> json_text t (JvFloat f)
| json_no_items w : white w -> json_text (L "[" ++ w ++ L "]") (JvArr [])
| json_items ts vs : ts <> [] -> Forall2 json_text ts vs -> json_text (L "[" ++ join (L ",") ts ++ L "]") (JvArr vs)
| json_no_members w : white w -> json_text (L "{" ++ w ++ L "}") (JvObj [])
| json_members ts kvs : ts <> [] -> Forall2 member_text ts kvs -> json_text (L "{" ++ join (L ",") ts ++ L "}") (JvObj kvs)
with member_text : str -> str * jv -> Prop :=
| member_of a k k' b t v : white a -> string_text k k' -> white b -> json_text t v ->
    member_text (a ++ L """" ++ k ++ L """" ++ b ++ L ":" ++ t) (k', v).
