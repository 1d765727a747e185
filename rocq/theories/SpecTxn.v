(** Specification vocabulary for calls on a transaction. *)
From Verif Require Import Base Buffer Types Transaction Engine.

(** The phase a call processes. *)
Definition op_phase (o : op) : option Z :=
  match o with
  | OpConnection _ _ _ _ => Some 1
  | OpRequestHeader _ => Some 2
  | OpRequestBody => Some 3
  | OpResponseHeaders _ _ _ => Some 4
  | OpResponseBody => Some 5
  | OpLogging => Some 6
  | _ => None
  end.
(** The transaction with the data a call brings. *)
Definition given (o : op) (t : txn) : txn :=
  match o with
  | OpConnection a b c d => with_net t a b c d
  | OpRequestURL u m p => with_request t u m p
  | OpRequestHeader h => with_reqheader t h
  | OpResponseHeaders c p h => with_response t c p h
  | _ => t
  end.
Definition is_abort (o : op) : bool := match o with OpAbortWithStatus _ => true | _ => false end.

(** The phase an action leads to when executed in phase [p]. *)
Inductive leads (p : Z) : action -> Z -> Prop :=
| ld_all : leads p (AAllow []) 6
| ld_phase : leads p (AAllow (B "phase")) (p + 1)
| ld_request : leads p (AAllow (B "request")) 4.
Definition leads_away (a : action) : Prop := exists p q, leads p a q.

(** A transaction no rule has interfered with. *)
Definition quiet (i : intervention) : Prop :=
  i_status i = 200 /\ i_pause i = 0 /\ i_url i = None /\ i_log i = [] /\ i_disruptive i = false.
