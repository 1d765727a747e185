(** Specification vocabulary for programs with several transactions and changing rules. *)
From Verif Require Import Base Buffer Types Transaction Engine Loader World.

(** The program with the calls on all transactions but [k] left out; engines, rules and
    new transactions stay. *)
Definition by_others (k : nat) (o : wop) : bool :=
  match o with WCall k' _ => negb (Nat.eqb k' k) | _ => false end.
Definition alone (k : nat) (os : list wop) : list wop := List.filter (fun o => negb (by_others k o)) os.
(** The calls on [k], and what they answered. *)
Fixpoint calls_on (k : nat) (os : list wop) : list op :=
  match os with
  | WCall k' o :: os' => if Nat.eqb k' k then o :: calls_on k os' else calls_on k os'
  | _ :: os' => calls_on k os'
  | [] => []
  end.
Fixpoint heard (k : nat) (os : list wop) (bl : list wobs) : list obs :=
  match os, bl with
  | WCall k' _ :: os', WAnswer b :: bl' => if Nat.eqb k' k then b :: heard k os' bl' else heard k os' bl'
  | _ :: os', _ :: bl' => heard k os' bl'
  | _, _ => []
  end.

(** The engine settings and rules in force at each call on [k], with the call. *)
Inductive in_force (f : nat) (O : oracles) (k : nat) : list wop -> world -> list (engine * ruleset * op) -> Prop :=
| if_nil : forall w, in_force f O k [] w []
| if_call : forall o os w w1 b h x rs l,
    nth_error (w_txns w) k = Some h -> nth_error (w_engs w) (ht_eng h) = Some x -> nth_error (w_sets w) (ht_set h) = Some rs ->
    wstep f O (WCall k o) w = Ret (w1, b) -> in_force f O k os w1 l ->
    in_force f O k (WCall k o :: os) w ((he_conf x, rs, o) :: l)
| if_other : forall o os w w1 b l, (forall o', o <> WCall k o') -> wstep f O o w = Ret (w1, b) ->
    in_force f O k os w1 l -> in_force f O k (o :: os) w l.
(** Calls one after the other, each under its own settings and rules. *)
Fixpoint under (f : nat) (O : oracles) (l : list (engine * ruleset * op)) (t : txn) : out (txn * list obs) :=
  match l with
  | [] => Ret (t, [])
  | (e, rs, o) :: l' =>
      '(t1, b) <- step f O e rs o t ;;
      '(t2, bl) <- under f O l' t1 ;;
      Ret (t2, b :: bl)
  end.

(** Engines that let the same bodies be seen, with the same memory for multipart forms. *)
Definition same_access (e e' : engine) : Prop :=
  e_reqaccess e = e_reqaccess e' /\ e_resaccess e = e_resaccess e' /\ e_reqmem e = e_reqmem e'.
(** Rule sets that agree on the default actions and on all phases after [m]. *)
Definition same_after (m : Z) (rs rs' : ruleset) : Prop :=
  rs_default rs = rs_default rs' /\ forall q, m < q -> phase_rules rs q = phase_rules rs' q.
(** No rule after phase [m] takes a transaction back: allow:request leads to phase 4. *)
Definition no_return (m : Z) (rs : ruleset) : Prop :=
  m < 4 \/
  (~ In (AAllow (B "request")) (rs_default rs) /\
   forall q r s, m < q -> In r (phase_rules rs q) -> In s (r :: r_subs r) -> ~ In (AAllow (B "request")) (r_acts s)).
Definition same_view (m : Z) (c c' : engine * ruleset * op) : Prop :=
  let '(e, rs, o) := c in let '(e', rs', o') := c' in
  o = o' /\ same_access e e' /\ same_after m rs rs' /\ no_return m rs.
(** Worlds that differ at most in the rules of phases up to [m], in the modes and size limits
    of engines, and in how far transactions are. *)
Definition same_but_past (m : Z) (w w' : world) : Prop :=
  Forall2 (fun x x' => he_set x = he_set x' /\ same_access (he_conf x) (he_conf x')) (w_engs w) (w_engs w') /\ w_dires w = w_dires w' /\ Forall2 (same_after m) (w_sets w) (w_sets w') /\
  map (fun h => (ht_eng h, ht_set h)) (w_txns w) = map (fun h => (ht_eng h, ht_set h)) (w_txns w').
(** All the rules a transaction meets while a program runs. *)
Definition never_returns (f : nat) (O : oracles) (m : Z) (k : nat) (os : list wop) (w : world) : Prop :=
  forall l, in_force f O k os w l -> Forall (fun c => no_return m (snd (fst c))) l.
(** The first part of a program that only makes calls. *)
Definition only_calls (os : list wop) : Prop := forall o, In o os -> exists k c, o = WCall k c.
