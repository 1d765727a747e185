(** Specification vocabulary: the answer to a caller that the matching rules spell out. *)
From Verif Require Import Base Buffer Types SpecText SpecVars SpecRules RuleFacts SpecTxn Transaction Engine SpecGate.

(** What a caller is told: the HTTP status, whether to intervene, the log lines; and the
    status the next denial will use. *)
Record reply := Reply { y_next : option Z; y_code : Z; y_denied : bool; y_lines : list bs }.
Definition silent : reply := Reply None 200 false [].

Definition client_line (ip port : bs) (p : Z) (msg : bs) : bs :=
  B "[client " ++ ip ++ B ":" ++ port ++ B "] (phase " ++ itoa p ++ B ") ModSecurity: " ++ msg.
(** The status of a denial: the one asked for if it is an HTTP status, else 403. *)
Definition asked_code (s : option Z) : Z :=
  match s with Some s => if (100 <=? s) && (s <=? 599) then s else 403 | None => 403 end.
(** What one action of rule number [i] of phase [p] adds. *)
Definition says (ip port : bs) (p : Z) (i : nat) (y : reply) (a : action) : reply :=
  match a with
  | AStatus s => Reply (Some s) (y_code y) (y_denied y) (y_lines y)
  | ALog => Reply (y_next y) (y_code y) (y_denied y)
      (y_lines y ++ [client_line ip port p (B "running action in phase " ++ itoa p ++ B " rule " ++ itoa (Z.of_nat i))])
  | ADeny => Reply (y_next y) (if y_code y =? 200 then asked_code (y_next y) else y_code y) true
      (y_lines y ++ [client_line ip port p (B "Access denied with code 403")])
  | _ => y
  end.
(** Rules, from number [i] on, looked at in order: those that match act; the first rule
    after which the transaction is denied is the last.  [M] says which match, [S] what
    actions they take. *)
Inductive reacts {A : Type} (M : A -> Prop) (S : A -> list action -> Prop) (ip port : bs) (p : Z) : nat -> list A -> reply -> reply -> Prop :=
| rc_end : forall i y, reacts M S ip port p i [] y y
| rc_miss : forall i r l y y', ~ M r -> y_denied y = false ->
    reacts M S ip port p (1 + i) l y y' -> reacts M S ip port p i (r :: l) y y'
| rc_miss_stop : forall i r l y, ~ M r -> y_denied y = true -> reacts M S ip port p i (r :: l) y y
| rc_fire : forall i r l y acts y1 y', M r -> S r acts ->
    y1 = fold_left (says ip port p i) acts y -> y_denied y1 = false ->
    reacts M S ip port p (1 + i) l y1 y' -> reacts M S ip port p i (r :: l) y y'
| rc_fire_stop : forall i r l y acts y1, M r -> S r acts ->
    y1 = fold_left (says ip port p i) acts y -> y_denied y1 = true ->
    reacts M S ip port p i (r :: l) y y1.
(** The rules of a phase react to a state. *)
Definition phase_reacts (O : oracles) (e : engine) (rs : ruleset) (p : Z) (t : txn) (y y' : reply) : Prop :=
  reacts (chain_matches O e t) (fun r => chain_actions (rs_default rs) (r :: r_subs r)) (t_srcip t) (t_srcport t) p 0 (phase_rules rs p) y y'.
(** The replies after each prefix of a history of calls: a call that reaches its phase
    brings a reaction to the data it brings; other calls do not.  [R] says which. *)
Inductive reply_after (R : Z -> txn -> reply -> reply -> Prop) (f : nat) (O : oracles) (e : engine) (rs : ruleset) : list op -> reply -> Prop :=
| ra_start : reply_after R f O e rs [] silent
| ra_phase : forall a o p t c y y', reply_after R f O e rs a y -> op_phase o = Some p -> ahead a p ->
    steps f O e rs a (new_txn e) = Ret (t, c) -> R p (given o t) y y' ->
    reply_after R f O e rs (a ++ [o]) y'
| ra_other : forall a o y, reply_after R f O e rs a y -> (forall p, op_phase o = Some p -> ~ ahead a p) ->
    reply_after R f O e rs (a ++ [o]) y.
