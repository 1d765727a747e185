(** Specification vocabulary: what any rules, whatever actions they take, make of any
    history of calls. *)
From Verif Require Import Base Buffer Types SpecText SpecVars SpecRules RuleFacts SpecTxn Transaction Engine SpecGate Scanner SpecParse SpecLoad SpecVerdict SpecAnswer SpecReply.

(** Where a transaction stands: its phase, the rule it is at (-1: none), the rule it
    goes to next (None: no more), the reply so far. *)
Record account := Account { k_phase : Z; k_rule : Z; k_next : option nat; k_reply : reply }.
Definition upto (n i : nat) : option nat := if (i <? n)%nat then Some i else None.
(** Where the word of an allow action leads from phase [p]. *)
Definition led (p : Z) (w : bs) : option Z :=
  if bs_eqb w [] then Some 6
  else if bs_eqb w (B "phase") then Some (Z.min 7 (p + 1))
  else if bs_eqb w (B "request") then Some 4
  else None.
(** What one action does; [n] is the number of rules of the phase. *)
Definition tells (ip port : bs) (n : nat) (k : account) (a : action) : account :=
  let 'Account p i x y := k in
  match a with
  | AStatus s => Account p i x (Reply (Some s) (y_code y) (y_denied y) (y_lines y))
  | ALog => Account p i x (Reply (y_next y) (y_code y) (y_denied y)
      (y_lines y ++ [client_line ip port p (B "running action in phase " ++ itoa p ++ B " rule " ++ itoa i)]))
  | ADeny => Account p i x (Reply (y_next y) (if y_code y =? 200 then asked_code (y_next y) else y_code y) true
      (y_lines y ++ [client_line ip port p (B "Access denied with code 403")]))
  | APass => Account p i x (Reply (y_next y) 200 false [])
  | ASkip => Account p i (upto n (Z.to_nat (i + 2))) y
  | AAllow w => match led p w with Some q => Account q (-1) (Some 0%nat) y | None => k end
  | ABlock => k
  end.

Section Phase.
Context {A : Type} (M : A -> Prop) (S : A -> list action -> Prop) (ip port : bs) (p : Z) (L : list A).
(** A rule that matches does what its actions tell; another does nothing. *)
Definition has_turn (r : A) (k k1 : account) : Prop :=
  (M r /\ exists acts, S r acts /\ k1 = fold_left (tells ip port (length L)) acts k) \/ (~ M r /\ k1 = k).
Definition arrive (i : nat) (k : account) : account := Account p (Z.of_nat i) (upto (length L) (1 + i)) (k_reply k).
(** The rules [L] of phase [p] at work: until an allow leads away, there are no more rules, or a
    denial stands after a turn. *)
Inductive plays : account -> account -> Prop :=
| pl_away : forall k, k_phase k <> p -> plays k k
| pl_end : forall k, k_next k = None -> plays k k
| pl_none : forall k i, k_next k = Some i -> nth_error L i = None -> plays k k
| pl_stop : forall k i r k1, k_phase k = p -> k_next k = Some i -> nth_error L i = Some r ->
    has_turn r (arrive i k) k1 -> y_denied (k_reply k1) = true -> plays k k1
| pl_on : forall k i r k1 k', k_phase k = p -> k_next k = Some i -> nth_error L i = Some r ->
    has_turn r (arrive i k) k1 -> y_denied (k_reply k1) = false -> plays k1 k' -> plays k k'.
End Phase.
(** The rules of a set, and the chains of a text, at work on the data of a state. *)
Definition set_plays (O : oracles) (e : engine) (rs : ruleset) (p : Z) (t : txn) : account -> account -> Prop :=
  plays (chain_matches O e t) (fun r => chain_actions (rs_default rs) (r :: r_subs r)) (t_srcip t) (t_srcport t) p (phase_rules rs p).
Definition text_plays (O : oracles) (e : engine) (ds : list directive) (p : Z) (t : txn) (k k' : account) : Prop :=
  exists cs, chains ds cs /\
    plays (Forall (written_matches O e t)) chain_takes (t_srcip t) (t_srcport t) p (List.filter (in_phase p) cs) k k'.

Definition answer (y : reply) : intervention := Intervention (y_code y) 0 None (y_lines y) (y_denied y).
(** The reply after the caller has fetched it. *)
Definition fetched (k : account) : account := Account (k_phase k) (k_rule k) (k_next k) (Reply (y_next (k_reply k)) 200 false []).
Definition ended (k : account) (s : Z) : account := Account (k_phase k) (k_rule k) (k_next k) (Reply (y_next (k_reply k)) s true (y_lines (k_reply k))).
Definition at_phase (p : Z) (k : account) : account := Account p (-1) (Some 0%nat) (k_reply k).
(** What the rules see at call [o] after the calls [a]: the data of the run itself, or just the data the
    calls bring. *)
Definition in_run (f : nat) (O : oracles) (e : engine) (rs : ruleset) (a : list op) (o : op) (s : txn) : Prop :=
  exists t c, steps f O e rs a (new_txn e) = Ret (t, c) /\ s = given o t.
Definition as_called (e : engine) (a : list op) (o : op) (s : txn) : Prop := s = brought (a ++ [o]) (new_txn e).
(** A history of calls: the account after it, whether the caller has put an end to it,
    and all answers given.  [D] says what the rules see, [R] what they do. *)
Section Story.
Variables (D : list op -> op -> txn -> Prop) (R : Z -> txn -> account -> account -> Prop).
Inductive story : list op -> account -> bool -> list intervention -> Prop :=
| so_start : story [] (Account 0 (-1) (Some 0%nat) silent) false []
| so_phase : forall a o p t k k' l, story a k false l -> op_phase o = Some p -> k_phase k < p ->
    D a o t -> R p t (at_phase p k) k' -> story (a ++ [o]) k' false l
| so_dead : forall a o p k l, story a k true l -> op_phase o = Some p -> k_phase k < p ->
    story (a ++ [o]) (at_phase p k) true l
| so_late : forall a o p k b l, story a k b l -> op_phase o = Some p -> p <= k_phase k ->
    story (a ++ [o]) k b l
| so_data : forall a o k b l, story a k b l -> op_phase o = None -> feeding o -> story (a ++ [o]) k b l
| so_abort : forall a s k b l, story a k b l -> story (a ++ [OpAbortWithStatus s]) (ended k s) true l
| so_result : forall a k b l, story a k b l ->
    story (a ++ [OpResult]) (if b then k else fetched k) b (l ++ [answer (k_reply k)]).
End Story.
Definition answers (bl : list obs) : list intervention :=
  flat_map (fun b => match b with ObsResult i => [i] | _ => [] end) bl.
(** No rule of phase [p] looks at a body. *)
Definition no_body (rs : ruleset) (p : Z) : Prop :=
  forall r q v, In r (phase_rules rs p) -> In q (r :: r_subs r) -> In v (r_vars q) -> looks_at_body v = false.
