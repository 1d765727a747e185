(** Specification vocabulary: calls that evaluate a rule twice. *)
From Verif Require Import Base Types Transaction Variables Rules Engine SpecRules RuleFacts TxnFacts SpecTxn LoopFacts SpecGate SpecBody Scanner Loader SpecParse SpecLoad SpecVerdict.

(** Evaluating rule [i] of phase [p] leads from [t] to [t1]: there is no such rule, some rule of its chain
    does not match, or all match and their actions are executed. *)
Definition turn (O : oracles) (e : engine) (rs : ruleset) (p i : Z) (t t1 : txn) : Prop :=
  (nrules rs p <= i /\ t1 = t) \/
  (0 <= i < nrules rs p /\ (misses O e rs p i t t1 \/ exists l, fires O e rs p i t t1 l)).

(** A call executing phase [p] that is to evaluate rule [i] in state [t] evaluates the rules [l] (the first of them
    [i]), is not stopped by a denial, and then is to evaluate rule [k] in state [u]. *)
Inductive goes (O : oracles) (e : engine) (rs : ruleset) (p : Z) : Z -> txn -> list Z -> Z -> txn -> Prop :=
| go_here : forall i t, t_phase t = p -> i <> StatusEndOfRules -> goes O e rs p i t [] i t
| go_on : forall i t t1 j t2 l k u, t_phase t = p -> i <> StatusEndOfRules -> turn O e rs p i t t1 -> i_disruptive (get_iv t1) = false ->
    next_rule rs (touch_iv t1) = (j, t2) -> goes O e rs p j t2 l k u -> goes O e rs p i t (i :: l) k u.

(** A call executing phase [p] comes to evaluate a rule it has evaluated before. *)
Definition evaluates_twice (O : oracles) (e : engine) (rs : ruleset) (p : Z) (t : txn) : Prop :=
  exists l i u, goes O e rs p 0 (entered rs p t) l i u /\ In i l.

(** What the rules of phase [p] look at stays as it is: no rule looks at a body, or all bodies can be read. *)
Definition settled (O : oracles) (e : engine) (rs : ruleset) (p : Z) (t : txn) : Prop :=
  (forall r q v, In r (phase_rules rs p) -> In q (r :: r_subs r) -> In v (r_vars q) -> looks_at_body v = false) \/ readable O e t.

(** ** Where allow leads *)
(** The words the allow actions of a list carry. *)
Definition allows (l : list action) : list bs := flat_map (fun a => match a with AAllow w => [w] | _ => [] end) l.
(** The phase allow actions with the words [ws], executed in this order in phase [p], lead to: an empty word leads to logging (6),
    "phase" to the next phase, "request" to the response headers (4). *)
Inductive lands : Z -> list bs -> Z -> Prop :=
| la_nil : forall p, lands p [] p
| la_all : forall p ws q, lands 6 ws q -> lands p ([] :: ws) q
| la_phase : forall p ws q, lands (Z.min 7 (p + 1)) ws q -> lands p (B "phase" :: ws) q
| la_request : forall p ws q, lands 4 ws q -> lands p (B "request" :: ws) q
| la_other : forall p w ws q, ~ In w [[]; B "phase"; B "request"] -> lands p ws q -> lands p (w :: ws) q.
(** They lead out of phase [p] and back to it. *)
Definition leads_back (p : Z) (ws : list bs) : Prop := lands p ws p /\ exists w, In w ws /\ In w [[]; B "phase"; B "request"].

(** ** The same of a text *)
(** The words of the allow actions, in the order written. *)
Inductive words_of : list paction -> list bs -> Prop :=
| wo_nil : words_of [] []
| wo_allow : forall s x l ws, unquoted s x -> words_of l ws -> words_of (PAction KAllow s :: l) (x :: ws)
| wo_other : forall a l ws, pa_tok a <> KAllow -> words_of l ws -> words_of (a :: l) ws.
Inductive chain_words : list written -> list bs -> Prop :=
| cw_nil : chain_words [] []
| cw_cons : forall w c a b, words_of (pas_acts (w_acts w)) a -> chain_words c b -> chain_words (w :: c) (a ++ b).
(** No chain leads back to its own phase. *)
Definition no_way_back (ds : list directive) : Prop :=
  forall w c ws, chain_in ds (w :: c) -> chain_words (w :: c) ws -> ~ leads_back (pas_phase (w_acts w)) ws.
