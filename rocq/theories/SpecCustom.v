(** Specification vocabulary for rules built from callers' own parts. *)
From Verif Require Import Base Buffer Types Transforms Operators Transaction Variables Rules Engine SpecRules Custom.
From Coq Require Import Sorting.Sorted.

(** Actions in the order of their groups, in the order given inside a group. *)
Definition by_groups {X} (l g : list (caction X)) : Prop :=
  Permutation l g /\ Sorted Z.le (map ca_group g) /\
  forall n, List.filter (fun a => ca_group a =? n) g = List.filter (fun a => ca_group a =? n) l.
(** The groups there are: metadata, data, non-disruptive, disruptive, flow. *)
Definition known_group {X} (a : caction X) : Prop := 0 <= ca_group a <= 4.
(** One after the other, each in the state the one before left. *)
Inductive in_turn {X} : list (caction X) -> st X -> st X -> Prop :=
| it_nil : forall s, in_turn [] s s
| it_cons : forall a l s s1 s', ca_do a s = Ret s1 -> in_turn l s1 s' -> in_turn (a :: l) s s'.

(** The actions of a chain: those of each rule by groups, rule after rule. *)
Inductive chain_in_turn {X} : list (crule X) -> st X -> st X -> Prop :=
| ct_nil : forall s, chain_in_turn [] s s
| ct_cons : forall r l g s s1 s', by_groups (c_acts r) g -> (forall a, In a g -> known_group a) ->
    in_turn g s s1 -> chain_in_turn l s1 s' -> chain_in_turn (r :: l) s s'.

(** Two rules that test the same, whatever they do. *)
Definition same_test {X} (r r' : crule X) : Prop :=
  c_vars r = c_vars r' /\ c_trans r = c_trans r' /\ c_op r = c_op r' /\ c_not r = c_not r'.

(** All rules of a chain match, each in the state the one before left. *)
Inductive all_hit {X} : list (crule X) -> st X -> st X -> Prop :=
| ah_nil : forall s, all_hit [] s s
| ah_cons : forall r l s s1 s', c_match r s = Ret (s1, true) -> all_hit l s1 s' -> all_hit (r :: l) s s'.
(** Some rule of a chain does not match; those before it do. *)
Inductive one_misses {X} : list (crule X) -> st X -> st X -> Prop :=
| om_here : forall r l s s1, c_match r s = Ret (s1, false) -> one_misses (r :: l) s s1
| om_later : forall r l s s1 s', c_match r s = Ret (s1, true) -> one_misses l s1 s' -> one_misses (r :: l) s s'.

(** A part that leaves the place in the rules alone. *)
Definition place (t : txn) : Z * Z * Z := (t_phase t, t_cur t, t_next t).
Definition stays {X} (r : crule X) : Prop :=
  forall s s', c_do_rule r s = Ret s' -> place (fst s') = place (fst s).

(** Rules done one after the other as the phase loop does: the cursor moves on after
    each, and the first that leaves a disruptive intervention is the last. [n] is the
    number of the first rule. *)
Inductive rules_in_turn {X} (len : Z) : Z -> list (crule X) -> st X -> st X -> Prop :=
| rt_stop : forall n r l s t1 x, c_do_rule r s = Ret (t1, x) -> i_disruptive (get_iv t1) = true ->
    rules_in_turn len n (r :: l) s (touch_iv t1, x)
| rt_last : forall n r s t1 x, c_do_rule r s = Ret (t1, x) -> i_disruptive (get_iv t1) = false ->
    rules_in_turn len n [r] s (with_pos (touch_iv t1) (t_phase t1) (-2) (-2), x)
| rt_next : forall n r l s t1 x s', l <> [] -> c_do_rule r s = Ret (t1, x) -> i_disruptive (get_iv t1) = false ->
    rules_in_turn len (n + 1) l
      (with_pos (touch_iv t1) (t_phase t1) (n + 1) (if len <=? n + 2 then -2 else n + 2), x) s' ->
    rules_in_turn len n (r :: l) s s'.

(** ** The repository's own parts, seen as parts of a caller *)
Definition own_do (f : nat) (rs : ruleset) (a : action) (t : txn) : out txn :=
  match a with
  | ADeny => Ret (do_deny t)
  | AAllow arg => Ret (do_allow arg t)
  | ABlock => actions_execute f rs (rs_default rs) t
  | ALog => Ret (do_log t)
  | APass => Ret (reset_intervention t)
  | ASkip => Ret (snd (jump_to rs (t_cur t + 2) t))
  | AStatus s => Ret (with_status t (Some s))
  end.
Definition own_action {X} (f : nat) (rs : ruleset) (a : action) : caction X :=
  CAction (group_of a) (fun s => t' <- own_do f rs a (fst s) ;; Ret (t', snd s)).
Definition own_var {X} (O : oracles) (e : engine) (v : variable) (s : st X) : out (st X * list bs) :=
  '(t', vs) <- fetch O e v (fst s) ;; Ret ((t', snd s), vs).
Definition own_trans {X} (O : oracles) (t : trans) (s : st X) (v : bs) : out (st X * bs) := Ret (s, apply_trans O t v).
Definition own_op {X} (O : oracles) (o : operator) (s : st X) (v : bs) : out (st X * bool) := Ret (s, op_match O o v).
Fixpoint own_rule {X} (f : nat) (O : oracles) (e : engine) (rs : ruleset) (r : rule) : crule X :=
  match r with
  | Rule _ _ vs ts o as_ n _ subs =>
      CRule (map (own_var O e) vs) (map (own_trans O) ts) (option_map (own_op O) o) (map (own_action f rs) as_) n
            (map (own_rule f O e rs) subs)
  end.
Definition own_set {X} (f : nat) (O : oracles) (e : engine) (rs : ruleset) : cset X :=
  map (fun pl => (fst pl, map (own_rule f O e rs) (snd pl))) (rs_phases rs).
(** An outcome on the transaction alone, beside a private state. *)
Definition beside {A X} (x : X) (m : out (txn * A)) : out (st X * A) :=
  match m with Ret (t, a) => Ret ((t, x), a) | Panic => Panic | Timeout => Timeout end.
