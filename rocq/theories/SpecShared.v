(** Specification vocabulary for programs whose engines may share their limits. *)
From Verif Require Import Base Types Transaction Rules Engine Loader World SpecWorld Shared.

(** Every engine has limits. *)
Definition placed (s : sworld) : Prop :=
  length (s_of s) = length (w_engs (s_world s)) /\ forall m, In m (s_of s) -> (m < length (s_lims s))%nat.
(** No two engines have the same limits. *)
Definition unshared (s : sworld) : Prop := NoDup (s_of s).
(** The limits engine [i] points to, and those it works with. *)
Definition points (s : sworld) (i m : nat) : Prop := nth_error (s_of s) i = Some m.
Definition works_with (s : sworld) (i : nat) (l : limits) : Prop :=
  exists x, nth_error (w_engs (seen s)) i = Some x /\ limits_in (he_conf x) = l.
(** The last switch of a directive set for the access to a body, if any; sizes cannot be
    set by a text. *)
Definition req_switch (d : dire) : option bool := match d with IReqBody b => Some b | _ => None end.
Definition res_switch (d : dire) : option bool := match d with IResBody b => Some b | _ => None end.
Definition switched (sw : dire -> option bool) (old : bool) (ds : list dire) : bool :=
  fold_left (fun v d => match sw d with Some b => b | None => v end) ds old.
(** What an operation writes to limits: which, and what. *)
Inductive writes (s : sworld) : sop -> nat -> limits -> Prop :=
| wr_set : forall m l, writes s (SSet m l) m l
| wr_limits : forall i m a b x y z, points s i m -> writes s (SProgram (WLimits i a b x y z)) m (Limits a b x y z)
| wr_execute : forall d i m ds l, points s i m -> nth_error (w_dires (s_world s)) d = Some ds -> nth_error (s_lims s) m = Some l ->
    writes s (SProgram (WExecute d i)) m
      (Limits (switched req_switch (l_req l) ds) (switched res_switch (l_res l) ds) (l_reqlimit l) (l_reqmem l) (l_reslimit l)).

(** The program with the calls on all transactions but [k] left out, the calls on [k], and
    their answers. *)
Definition s_alone (k : nat) (os : list sop) : list sop :=
  List.filter (fun o => match o with SProgram o => negb (by_others k o) | _ => true end) os.
Fixpoint s_heard (k : nat) (os : list sop) (bl : list wobs) : list obs :=
  match os, bl with
  | SProgram (WCall k' _) :: os', WAnswer b :: bl' => if Nat.eqb k' k then b :: s_heard k os' bl' else s_heard k os' bl'
  | _ :: os', _ :: bl' => s_heard k os' bl'
  | _, _ => []
  end.
