(** Specification vocabulary: goroutines that have made all their calls, and how often each has its turn. *)
From Verif Require Import Base Types Engine Threads.

(** All calls made and answered. *)
Definition finished (th : thread) : Prop := th_work th = [] /\ th_todo th = [].
(** How many turns a schedule gives to a goroutine. *)
Inductive gets (k : nat) : list nat -> nat -> Prop :=
| gets_none : gets k [] 0
| gets_one : forall ks n, gets k ks n -> gets k (k :: ks) (S n)
| gets_other : forall j ks n, j <> k -> gets k ks n -> gets k (j :: ks) n.
(** Programs of goroutines: engine, rules and calls of each. *)
Definition program : Type := engine * ruleset * list op.
Definition started (ps : list program) : list thread := map (fun p => new_thread (fst (fst p)) (snd (fst p)) (snd p)) ps.
(** How deep a goroutine is in calls of functions that have not returned. *)
Definition depth (th : thread) : nat := length (th_work th).
