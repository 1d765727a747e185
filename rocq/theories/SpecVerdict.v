(** Specification vocabulary: what the rules of a text, as written, say about a
    transaction. *)
From Verif Require Import Base Buffer Types Transforms Transaction Variables Engine SpecText SpecVars VarFacts SpecRules Scanner Loader SpecParse SpecLoad.

(** A rule as written: variables, operator, actions. *)
Record written := Written { w_vars : list pvar; w_op : poper; w_acts : pactions }.
Definition rule_line (d : directive) (w : written) : Prop := d = DRule (w_vars w) (w_op w) (w_acts w).
Definition no_rule_line (d : directive) : Prop := forall w, ~ rule_line d w.

(** The rest of a chain: the rules up to the first that is not flagged, or up to the
    end; other directives in between do not matter.  And what follows it. *)
Inductive chain_rest : list directive -> list written -> list directive -> Prop :=
| cr_end : chain_rest [] [] []
| cr_last : forall d w ds, rule_line d w -> pas_chain (w_acts w) = false -> chain_rest (d :: ds) [w] ds
| cr_more : forall d w ds l rest, rule_line d w -> pas_chain (w_acts w) = true -> chain_rest ds l rest -> chain_rest (d :: ds) (w :: l) rest
| cr_other : forall d ds l rest, no_rule_line d -> chain_rest ds l rest -> chain_rest (d :: ds) l rest.
(** The directives begin with a chain (most often of one rule). *)
Definition first_chain (ds : list directive) (c : list written) (rest : list directive) : Prop :=
  exists d w ds', ds = d :: ds' /\ rule_line d w /\
    ((pas_chain (w_acts w) = false /\ c = [w] /\ rest = ds') \/
     (pas_chain (w_acts w) = true /\ exists l, chain_rest ds' l rest /\ c = w :: l)).
(** The chains of a text. *)
Inductive chain_in : list directive -> list written -> Prop :=
| ci_here : forall ds c rest, first_chain ds c rest -> chain_in ds c
| ci_later : forall ds c rest c', first_chain ds c rest -> chain_in rest c' -> chain_in ds c'
| ci_other : forall d ds c, no_rule_line d -> chain_in ds c -> chain_in (d :: ds) c.

(** The transformations of a rule, left to right. *)
Definition changed (O : oracles) (ts : list ttok) (s : bs) : bs := fold_left (fun v t => apply_trans O (trans_means t) v) ts s.
(** The rule matches: some value of one of its variables, with all the selectors
    written for that variable, satisfies the operator once transformed. *)
Definition written_matches (O : oracles) (e : engine) (t : txn) (w : written) : Prop :=
  exists tk c s x t' vals v o,
    mentions tk c (w_vars w) /\ In (tk, s) var_means /\ apply_calls O (calls_of tk c (w_vars w)) (if c then VCount s else s) = Some x /\
    fetch O e x t = Ret (t', vals) /\ In v vals /\ op_means O (w_op w) o /\
    (if po_not (w_op w) then ~ satisfies O o (changed O (pas_trans (w_acts w)) v) else satisfies O o (changed O (pas_trans (w_acts w)) v)).
Definition asks_denial (w : written) : Prop := exists x, In x (pas_acts (w_acts w)) /\ pa_tok x = KDeny.
(** The text says the transaction is to be denied in phase [p]. *)
Definition written_denied (O : oracles) (e : engine) (ds : list directive) (p : Z) (t : txn) : Prop :=
  exists w c, chain_in ds (w :: c) /\ pas_phase (w_acts w) = p /\
    Exists asks_denial (w :: c) /\ Forall (written_matches O e t) (w :: c).

(** No rule says skip or allow. *)
Definition straight (ds : list directive) : Prop :=
  forall d w x, In d ds -> rule_line d w -> In x (pas_acts (w_acts w)) -> pa_tok x <> KSkip /\ pa_tok x <> KAllow.
(** No rule of phase [p] mentions a variable made from a body. *)
Definition body_words : list vtok := [KArgs; KArgsNames; KArgsPost; KArgsPostNames; KRequestBody; KResponseBody].
Definition bodiless (ds : list directive) (p : Z) : Prop :=
  forall w c w' v, chain_in ds (w :: c) -> pas_phase (w_acts w) = p -> In w' (w :: c) -> In v (w_vars w') -> ~ In (pv_tok v) body_words.
(** The switches for the request body, in order. *)
Definition body_switches (ds : list directive) : list bool := flat_map (fun d => match d with DReqBody b => [b] | _ => [] end) ds.
