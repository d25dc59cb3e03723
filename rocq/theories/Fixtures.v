(** Concrete values used by the examples beside the theorems. *)
From Verif Require Import Base Domain Lexer Parser Validate Store Search Explain Yaml Service Dump Api.

(** The identity in place of sha256, and no letters above Latin-1. *)
Definition E0 : env := mkEnv (fun s => s) (fun _ => ClOther).

Definition rl (n : string) (x : relexpr) (sr : subj_restriction) : relation :=
  mkRelation n "" (Some x) (Some sr).

Definition rs (n : string) (l : list relation) : resource := mkResource n "" l.

(** users, groups of users, and files with owners, readers, and viewers of the parent folder *)
Definition pol (id : string) : policy :=
  mkPolicy id "n" "d"
    [ rs "user" [];
      rs "group" [rl "member" (XTree (TRule RThis)) (SRSet [REntity "user"; REntitySet "group" "member"])];
      rs "folder" [rl "viewer" (XExpr "_this") SRUniversal];
      rs "file" [rl "owner" (XExpr "_this") (SRSet [REntity "user"]);
                 rl "parent" (XExpr "_this") (SRSet [REntity "folder"]);
                 rl "reader" (XExpr "_this + owner + parent->viewer") SRUniversal] ] [].

Definition ent (r i : string) : entity := mkEntity r i.
Definition tup (r i l : string) (u : subject) : relationship := mkRel (Some (ent r i)) l (Some u).
Definition user (i : string) : subject := SEntity (ent "user" i).
Definition members (i : string) : subject := SEntitySet (Some (ent "group" i)) "member".

Definition create (id : string) : request := QCreatePolicy 1%N (Some (DPolicy (pol id))) "app".
Definition set (pid : string) (r : relationship) : request := QSetRelationship 2%N pid (Some r) "data".
