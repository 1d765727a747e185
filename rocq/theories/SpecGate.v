(** Specification vocabulary: rule sets that only deny. *)
From Verif Require Import Base Buffer Types Transaction Variables Rules Engine SpecText SpecVars SpecRules RuleFacts SpecTxn TxnFacts.

(** Variables that look at a body. *)
Fixpoint looks_at_body (v : variable) : bool :=
  match v with
  | VColl CArgsPost _ | VColl CArgsPostNames _ | VArgs _ _ | VArgsNames _ _ => true
  | VColl _ _ => false
  | VScalar SRequestBody | VScalar SResponseBody => true
  | VScalar _ => false
  | VCount v => looks_at_body v
  end.

(** The rules of phase [p] neither skip nor pass nor allow (not by way of block either) and
    look at no body. *)
Definition gate (rs : ruleset) (p : Z) : Prop :=
  (forall a, usable rs p a -> a <> ASkip /\ a <> APass /\ ~ leads_away a) /\
  (forall r q v, In r (phase_rules rs p) -> In q (r :: r_subs r) -> In v (r_vars q) -> looks_at_body v = false).

(** A rule of a chain asks for a denial. *)
Definition denies (rs : ruleset) (r : rule) : Prop :=
  exists q, In q (r :: r_subs r) /\ (In ADeny (r_acts q) \/ (In ABlock (r_acts q) /\ In ADeny (rs_default rs))).

(** Some value of some variable of the rule, looked at in state [t], hits. *)
Definition rule_matches (O : oracles) (e : engine) (t : txn) (q : rule) : Prop :=
  exists v t' vals x, In v (r_vars q) /\ fetch O e v t = Ret (t', vals) /\ In x vals /\ hit O q (transformed O q x).
(** So do all rules of the chain. *)
Definition chain_matches (O : oracles) (e : engine) (t : txn) (r : rule) : Prop :=
  forall q, In q (r :: r_subs r) -> rule_matches O e t q.
Definition denied_by (O : oracles) (e : engine) (rs : ruleset) (p : Z) (t : txn) : Prop :=
  exists r, In r (phase_rules rs p) /\ denies rs r /\ chain_matches O e t r.

(** The transaction with the data the calls bring, none of them executed. *)
Definition brought (os : list op) (t : txn) : txn := fold_left (fun u o => given o u) os t.
(** Among the calls [os], phase [p] is still ahead. *)
Definition ahead (os : list op) (p : Z) : Prop := forall o q, In o os -> op_phase o = Some q -> q < p.
(** Calls that neither fetch the result nor abort. *)
Definition feeding (o : op) : Prop := match o with OpResult | OpAbortWithStatus _ => False | _ => True end.
