(** Specification vocabulary: the answer to a caller that the text of the rules spells out. *)
From Verif Require Import Base Buffer Types SpecText SpecVars SpecRules RuleFacts SpecTxn Transaction Engine SpecGate Scanner SpecParse SpecLoad SpecVerdict SpecAnswer.

(** All chains of a text, in order. *)
Inductive chains : list directive -> list (list written) -> Prop :=
| ch_nil : chains [] []
| ch_chain : forall ds c rest cs, first_chain ds c rest -> chains rest cs -> chains ds (c :: cs)
| ch_other : forall d ds cs, no_rule_line d -> chains ds cs -> chains (d :: ds) cs.
(** A chain belongs to the phase its first rule names. *)
Definition in_phase (p : Z) (c : list written) : bool :=
  match c with w :: _ => pas_phase (w_acts w) =? p | [] => false end.
(** The actions a chain takes: those of its rules, one rule after the other. *)
Inductive chain_takes : list written -> list action -> Prop :=
| ct_nil : chain_takes [] []
| ct_cons : forall w c x l1 l2, acts_mean (pas_acts (w_acts w)) x -> rule_actions [] x l1 -> chain_takes c l2 -> chain_takes (w :: c) (l1 ++ l2).
(** The chains of a phase react to a state. *)
Definition text_reacts (O : oracles) (e : engine) (ds : list directive) (p : Z) (t : txn) (y y' : reply) : Prop :=
  exists cs, chains ds cs /\
    reacts (Forall (written_matches O e t)) chain_takes (t_srcip t) (t_srcport t) p 0 (List.filter (in_phase p) cs) y y'.

(** A rule that asks for a denial with a status of its own and nothing else. *)
Definition denies_with (w : written) (n : Z) : Prop :=
  exists x, acts_mean (pas_acts (w_acts w)) x /\ Permutation x [AStatus n; ADeny] /\ 100 <= n <= 599 /\ n <> 200.
Definition first_that {A} (M : A -> Prop) (l : list A) (x : A) : Prop :=
  exists l1 l2, l = l1 ++ x :: l2 /\ M x /\ Forall (fun z => ~ M z) l1.
