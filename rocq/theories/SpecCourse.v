(** Specification vocabulary: the course of a whole exchange under rules with any actions. *)
From Verif Require Import Base Buffer Types Transforms Transaction Engine SpecText SpecVars SpecRules RuleFacts SpecTxn SpecData SpecGate SpecBody Scanner Loader SpecParse SpecLoad SpecVerdict
  SpecQuery SpecUri SpecMedia SpecMulti SpecAnswer SpecReply SpecAccount SpecFilter SpecExchange.

Section Course.
Variables (O : oracles) (ds : list directive) (rq : request) (fields : list (bs * bs)) (body : list bs) (rp : response) (port : bs).
(** The chains of a phase at work on the texts of the exchange. *)
Definition phase_plays (p : Z) (k k' : account) : Prop :=
  exists cs, chains ds cs /\ plays (Forall (holds_in O ds rq fields body rp)) chain_takes (q_ip rq) port p (List.filter (in_phase p) cs) k k'.
(** Phase after phase; a phase that an allow has led past or to is left out. *)
Inductive course : list Z -> account -> Prop :=
| co_start : course [] (Account 0 (-1) (Some 0%nat) SpecAnswer.silent)
| co_phase : forall ps p k k', course ps k -> k_phase k < p -> phase_plays p (at_phase p k) k' -> course (ps ++ [p]) k'
| co_passed : forall ps p k, course ps k -> p <= k_phase k -> course (ps ++ [p]) k.
End Course.

(** A rule that lets the client through: its only action is allow. *)
Definition lets_through (w : written) : Prop := acts_mean (pas_acts (w_acts w)) [AAllow []].
