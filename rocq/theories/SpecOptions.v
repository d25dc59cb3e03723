(** Specification of the options of New. *)
From Verif Require Import Base Config.

(** The logger that an option asks for (zanzi.go:87-124); a nil logger asks for the default one. *)
Inductive asks_logger : opt -> logger -> Prop :=
| al_given l : asks_logger (WithLogger (Some l)) l
| al_nil : asks_logger (WithLogger None) LDefault
| al_default : asks_logger WithDefaultLogger LDefault
| al_development : asks_logger WithDevelopmentLogger LDevelopment
| al_config : asks_logger WithDevelopmentConfig LDevelopment
| al_without : asks_logger WithoutLogger LNoop.

(** [o] is the last of the options that asks for a logger, and asks for [l]. *)
Definition last_logger (os : list opt) (l : logger) : Prop :=
  exists before o later, os = before ++ o :: later /\ asks_logger o l /\ forall o' l', In o' later -> ~ asks_logger o' l'.
