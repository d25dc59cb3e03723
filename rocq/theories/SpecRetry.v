(** Specification of requests that are sent again. *)
From Verif Require Import Base Domain Lexer Store Search Explain Yaml Service Dump Api.

(** The same request, handled at another time. *)
Definition again (now : N) (q : request) : request :=
  match q with
  | QCreatePolicy _ d app => QCreatePolicy now d app
  | QSetRelationship _ pid r app => QSetRelationship now pid r app
  | _ => q
  end.

(** Requests that remove any number of relationships. *)
Definition removes_many (q : request) : Prop :=
  match q with
  | QDeletePolicy _ | QDeleteRelationships _ _ => True
  | _ => False
  end.
