(** Specification: messages that nobody has looked at. *)
From Verif Require Import Base Domain Lexer Store Service Api Book.

Definition clean_entity (e : m_entity) : Prop := me_book e = fresh.

Definition clean_subject (u : m_subject) : Prop :=
  ms_book u = fresh /\
  match ms_is u with
  | MVEntity e => clean_entity e
  | MVSet b e _ => b = fresh /\ (forall x, e = Some x -> clean_entity x)
  | MVRes b _ => b = fresh
  | MVUnset => True
  end.

(** The object and the subject that a selector names. *)
Definition clean_selector (x : m_selector) : Prop :=
  (forall e, m_obj x = Some (MOObject (Some e)) -> clean_entity e) /\
  (forall u, m_subj x = Some (MUSubject (Some u)) -> clean_subject u).

Definition clean_request (q : m_request) : Prop :=
  match q with
  | MFind _ (Some x) | MDelete _ (Some x) => clean_selector x
  | _ => True
  end.

(** The answer of a search or a deletion that found nothing. *)
Definition nothing_found (a : res response) : res response :=
  match a with
  | Ok (ARecords _) => Ok (ARecords [])
  | Ok (ACount _) => Ok (ACount 0)
  | a => a
  end.

(** All have arrived and none has begun. *)
Definition m_start (E : env) (qs : list m_request) (s : store) : config := (map (m_serve E) qs, s).
