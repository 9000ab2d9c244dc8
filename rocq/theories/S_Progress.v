(** What the theorems about reported progress speak about. *)
From Verif Require Import M_Graph S_Graph.
From Verif Require Export M_Progress S_Blame.
From Verif Require Import M_Text.
Close Scope Z_scope.

(** [done] of [total] files are done, in the phase of that name. *)
Definition reports (total done : nat) (phase : str) (r : report) : Prop :=
  rp_first r = total /\ rp_second r = done /\ rp_phase r = phase.
(** What is reported when the entities of the first [k] of the files have been
    begun: the start, and each of them with the number of files before it. *)
Definition reports_begun (total k : nat) (rs : list report) : Prop :=
  exists r0 rs', rs = r0 :: rs' /\ reports total 0 (L "Building schemas") r0 /\ length rs' = k /\
    forall i r, nth_error rs' i = Some r -> reports total i (L "Building entities") r.
(** All schemas can be read and no two are for one type. *)
Definition schemas_sound (env : dsl_env) (fs : files) : Prop :=
  exists ss, Forall2 (reads_schema env) (schema_blocks fs) ss /\ NoDup (map s_type ss).
(** Each entity of the file can be read and conforms to one of the schemas. *)
Definition file_sound (env : dsl_env) (fs : files) (f : wfile) : Prop :=
  forall n, In n (wf_entities f) -> exists e b s, reads_entity env (wf_rel f, n) e /\ In b (schema_blocks fs) /\ reads_schema env b s /\ conforms s e.
(** The file an error names. *)
Definition names_file (x : fault) (p : str) : Prop :=
  match x with FIo => False | FParse q _ | FInvalid q _ | FMissing q _ => q = p end.
