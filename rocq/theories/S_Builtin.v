(** What the built-in types of entities ask for, for C60. *)
From Verif Require Import S_Graph M_Graph.
From Verif Require Export S_Schema.
Close Scope Z_scope.

(** A value of a type, or one of some words. *)
Inductive want := Plain (t : field_type) | OneOf (words : list str).
(** A field an entity must or may have. *)
Inductive row := Must (name : str) (w : want) | May (name : str) (w : want).
Definition fits (v : value) (w : want) : Prop :=
  match w with
  | Plain t => has_type v t
  | OneOf words => exists x u, v = VEnum x /\ In u words /\ normal_of x u
  end.
Definition follows_row (e : entity) (r : row) : Prop :=
  match r with
  | Must name w => (exists v, first_value e name v) /\ forall v, first_value e name v -> fits v w
  | May name w => forall v, first_value e name v -> fits v w
  end.
(** Every built-in type: firm_lang/src/defaults.rs:32-324. *)
Definition built_in : list (str * list row) :=
  [
(L "person", [Must (L "name") (Plain TStr);
      May (L "email") (Plain TStr);
      May (L "phone") (Plain TStr);
      May (L "urls") (Plain TList)]);
   (L "organization", [Must (L "name") (Plain TStr);
      May (L "address") (Plain TStr);
      May (L "email") (Plain TStr);
      May (L "phone") (Plain TStr);
      May (L "urls") (Plain TList);
      May (L "vat_id") (Plain TStr);
      May (L "industry_ref") (Plain TRef)]);
   (L "industry", [Must (L "name") (Plain TStr);
      May (L "sector") (Plain TStr);
      May (L "classification_code") (Plain TStr);
      May (L "classification_system") (Plain TStr)]);
   (L "account", [Must (L "name") (Plain TStr);
      Must (L "organization_ref") (Plain TRef);
      May (L "owner_ref") (Plain TRef);
      May (L "status") (OneOf [L "prospect"; L "engaged"; L "client"; L "partner"; L "closed"])]);
   (L "channel", [Must (L "name") (Plain TStr);
      May (L "type") (OneOf [L "website"; L "social media"; L "email"; L "meeting"; L "other"]);
      May (L "description") (Plain TStr)]);
   (L "lead", [Must (L "source_ref") (Plain TRef);
      May (L "status") (OneOf [L "new"; L "qualified"; L "converted"; L "discarded"]);
      May (L "person_ref") (Plain TRef);
      May (L "account_ref") (Plain TRef);
      May (L "score") (Plain TInt)]);
   (L "contact", [May (L "source_ref") (Plain TRef);
      May (L "person_ref") (Plain TRef);
      May (L "account_ref") (Plain TRef);
      May (L "role") (Plain TStr);
      May (L "status") (OneOf [L "prospect"; L "partner"; L "client"; L "network"; L "other"])]);
   (L "interaction", [May (L "type") (OneOf [L "online meeting"; L "in-person meeting"; L "chat"; L "email"; L "other"]);
      Must (L "subject") (Plain TStr);
      Must (L "initiator_ref") (Plain TRef);
      Must (L "primary_contact_ref") (Plain TRef);
      Must (L "interaction_date") (Plain TDate);
      May (L "outcome") (Plain TStr);
      May (L "secondary_contacts_ref") (Plain TList);
      May (L "channel_ref") (Plain TRef);
      May (L "opportunity_ref") (Plain TRef)]);
   (L "opportunity", [Must (L "source_ref") (Plain TRef);
      Must (L "name") (Plain TStr);
      May (L "status") (OneOf [L "open"; L "closed won"; L "closed lost"]);
      May (L "value") (Plain TCur);
      May (L "probability") (Plain TInt)]);
   (L "strategy", [Must (L "name") (Plain TStr);
      May (L "description") (Plain TStr);
      May (L "source_ref") (Plain TRef);
      May (L "owner_ref") (Plain TRef);
      May (L "status") (OneOf [L "draft"; L "active"; L "completed"; L "archived"]);
      May (L "start_date") (Plain TDate);
      May (L "end_date") (Plain TDate)]);
   (L "objective", [Must (L "name") (Plain TStr);
      May (L "description") (Plain TStr);
      May (L "strategy_ref") (Plain TRef);
      May (L "owner_ref") (Plain TRef);
      May (L "status") (Plain TStr);
      May (L "start_date") (Plain TDate);
      May (L "end_date") (Plain TDate)]);
   (L "key_result", [Must (L "name") (Plain TStr);
      Must (L "objective_ref") (Plain TRef);
      May (L "owner_ref") (Plain TRef);
      May (L "start_value") (Plain TFloat);
      May (L "target_value") (Plain TFloat);
      May (L "current_value") (Plain TFloat);
      May (L "unit") (Plain TStr)]);
   (L "project", [Must (L "name") (Plain TStr);
      May (L "status") (OneOf [L "planned"; L "in progress"; L "completed"; L "cancelled"]);
      May (L "description") (Plain TStr);
      May (L "owner_ref") (Plain TRef);
      May (L "objective_refs") (Plain TList);
      May (L "due_date") (Plain TDate)]);
   (L "task", [Must (L "name") (Plain TStr);
      May (L "description") (Plain TStr);
      May (L "source_ref") (Plain TRef);
      May (L "assignee_ref") (Plain TRef);
      May (L "due_date") (Plain TDate);
      May (L "is_completed") (Plain TBool);
      May (L "completed_at") (Plain TDate)]);
   (L "review", [Must (L "name") (Plain TStr);
      Must (L "date") (Plain TDate);
      May (L "owner_ref") (Plain TRef);
      May (L "source_refs") (Plain TList);
      May (L "attendee_refs") (Plain TList)]);
   (L "file_asset", [Must (L "name") (Plain TStr);
      Must (L "path") (Plain TPath);
      May (L "description") (Plain TStr);
      May (L "source_ref") (Plain TRef);
      May (L "owner_ref") (Plain TRef)])
  ].
(** And what all of them may have. *)
Definition on_every : list row := [May (L "notes") (Plain TStr); May (L "created_at") (Plain TDate); May (L "updated_at") (Plain TDate)].
