(** Specification vocabulary: everything a program that uses the library sees, told from the
    operations it has performed (SpecProgram.v) and from the account of each of its transactions
    (SpecChronicle.v); also when it breaks down.  Uses the types of the model. *)
From Verif Require Import Base Buffer Types Transaction Engine Scanner Loader SpecParse SpecLoad World SpecTxn SpecAnswer SpecAccount SpecProgram SpecChronicle.

Section Annals.
Variables (O : oracles) (read : nat -> bs -> list dire).
Definition has_set (past : list wop) (i : nat) : Prop := exists j, set_of past i = Some j /\ (j < sets past)%nat.
(** What must be there for an operation. *)
Definition needs (past : list wop) (o : wop) : Prop :=
  match o with
  | WNewEngine | WNewSet | WNewDires => True
  | WPoint i _ | WEnable i _ | WLimits i _ _ _ _ _ => (i < engines past)%nat
  | WAddSecRule i _ => (i < engines past)%nat /\ has_set past i
  | WAddRules j _ | WAddDefaults j _ => (j < sets past)%nat
  | WAddText d _ _ => (d < dsets past)%nat
  | WExecute d i => (d < dsets past)%nat /\ (dires_of read past d <> [] -> (i < engines past)%nat) /\
      (rules_of (dires_of read past d) <> [] -> has_set past i)
  | WNewTransaction _ i => (i < engines past)%nat /\ (set_of past i <> None -> has_set past i)
  | WNewTransactionOf _ (Some i) (Some j) => (i < engines past)%nat /\ (j < sets past)%nat
  | WNewTransactionOf _ _ _ => True
  | WCall k _ => (k < length (txns_of past))%nat
  end.
(** What it answers, calls aside: the number of the new object, whether the text was read, or an
    error instead of a transaction if the directory, the engine or the rules are wanting. *)
Inductive answers (past : list wop) : wop -> wobs -> Prop :=
| aw_engine : answers past WNewEngine (WNew (engines past))
| aw_set : answers past WNewSet (WNew (sets past))
| aw_dires : answers past WNewDires (WNew (dsets past))
| aw_point : forall i j, answers past (WPoint i j) WNone
| aw_enable : forall i s, answers past (WEnable i s) WNone
| aw_limits : forall i a b c d e, answers past (WLimits i a b c d e) WNone
| aw_sec_rule : forall i l, answers past (WAddSecRule i l) WNone
| aw_rules : forall j l, answers past (WAddRules j l) WNone
| aw_defaults : forall j l, answers past (WAddDefaults j l) WNone
| aw_execute : forall d i, answers past (WExecute d i) WNone
| aw_text : forall d n text ok, text_adds O n text ok (read n text) -> answers past (WAddText d n text) (WRead ok)
| aw_new : forall i, set_of past i <> None -> answers past (WNewTransaction true i) (WNew (length (txns_of past)))
| aw_new_no_set : forall dir i, set_of past i = None -> answers past (WNewTransaction dir i) WRefused
| aw_new_no_dir : forall i, answers past (WNewTransaction false i) WRefused
| aw_of : forall i j, answers past (WNewTransactionOf true (Some i) (Some j)) (WNew (length (txns_of past)))
| aw_of_no_engine : forall dir j, answers past (WNewTransactionOf dir None j) WRefused
| aw_of_no_set : forall dir i, answers past (WNewTransactionOf dir i None) WRefused
| aw_of_no_dir : forall i j, answers past (WNewTransactionOf false i j) WRefused.
(** The settings and rules a call on transaction [k] meets. *)
Definition in_effect (past : list wop) (k : nat) (e : engine) (rs : ruleset) : Prop :=
  exists i j sz, nth_error (txns_of past) k = Some (i, j, sz) /\ settings read past i e /\ contents read past j rs.
(** What the calls on each transaction have brought, and where it stands. *)
Definition under_way : Type := list (facts * standing).
(** One operation: what it answers and what it makes of the transactions. *)
Inductive proceeds (past : list wop) : under_way -> wop -> under_way -> wobs -> Prop :=
| pr_new : forall ts o k i e, needs past o -> answers past o (WNew k) -> makes_on i o -> settings read past i e ->
    proceeds past ts o (ts ++ [(no_facts, start e)]) (WNew k)
| pr_other : forall ts o b, needs past o -> answers past o b -> (forall i, makes_on i o -> b = WRefused) -> proceeds past ts o ts b
| pr_call : forall ts1 x s ts2 c b e rs s', in_effect past (length ts1) e rs -> goes O e rs (learns c x) c s s' b ->
    proceeds past (ts1 ++ (x, s) :: ts2) (WCall (length ts1) c) (ts1 ++ (learns c x, s') :: ts2) (WAnswer b).
(** An operation that breaks the program: something is not there, or a call goes wrong. *)
Inductive stops (past : list wop) : under_way -> wop -> Prop :=
| so_nothing : forall ts o, ~ needs past o -> stops past ts o
| so_call : forall ts1 x s ts2 c e rs, in_effect past (length ts1) e rs -> goes_wrong O e rs (learns c x) c s ->
    stops past (ts1 ++ (x, s) :: ts2) (WCall (length ts1) c).
(** [annals past ts os bl]: a program that has performed [past] and has the transactions [ts] sees [bl]
    when it goes on with [os]. *)
Inductive annals : list wop -> under_way -> list wop -> list wobs -> Prop :=
| an_nil : forall past ts, annals past ts [] []
| an_cons : forall past ts o ts' b os bl, proceeds past ts o ts' b -> annals (o :: past) ts' os bl -> annals past ts (o :: os) (b :: bl).
Inductive collapses : list wop -> under_way -> list wop -> Prop :=
| co_here : forall past ts o os, stops past ts o -> collapses past ts (o :: os)
| co_later : forall past ts o ts' b os, proceeds past ts o ts' b -> collapses (o :: past) ts' os -> collapses past ts (o :: os).
End Annals.
