(** Model of rule evaluation: modsecurity/sec_rule.go, package [actions], and the
    phase loop of modsecurity/transaction.go. *)
From Verif Require Import Base GoStrings Buffer Types Transforms Operators Transaction Variables.

(** modsecurity/sec_rule.go:60-66 [TransformVariable] *)
Definition transform_variable (O : oracles) (e : engine) (r : rule) (v : variable) (t : txn)
  : out (txn * list bs) :=
  '(t1, vs) <- fetch O e v t ;;
  Ret (t1, map (transform_string O (r_trans r)) vs).

(** modsecurity/sec_rule.go:68-74 [FetchAllTransformedVariables] *)
Fixpoint fetch_all (O : oracles) (e : engine) (r : rule) (vs : list variable) (t : txn)
  : out (txn * list bs) :=
  match vs with
  | [] => Ret (t, [])
  | v :: vs' =>
      '(t1, a) <- transform_variable O e r v t ;;
      '(t2, b) <- fetch_all O e r vs' t1 ;;
      Ret (t2, a ++ b)
  end.

(** modsecurity/sec_rule.go:77-85: the value loop; operators do not change the
    transaction.  A nil Operator panics when called. *)
Fixpoint match_values (O : oracles) (aborted : bool) (r : rule) (vs : list bs) : out bool :=
  match vs with
  | [] => Ret false
  | v :: vs' =>
      if aborted then Ret false
      else match r_op r with
           | None => Panic
           | Some o =>
               if negb (Bool.eqb (r_not r) (op_match O o v)) then Ret true
               else match_values O aborted r vs'
           end
  end.

(** modsecurity/sec_rule.go:76-86 [Match] *)
Definition match_rule (O : oracles) (e : engine) (r : rule) (t : txn) : out (txn * bool) :=
  '(t1, vs) <- fetch_all O e r (r_vars r) t ;;
  m <- match_values O (t_abort t1) r vs ;;
  Ret (t1, m).

(** modsecurity/sec_rule.go:93-97: all sub-rules in order, stop at the first miss.
    Sub-rules of sub-rules are not consulted. *)
Fixpoint match_subs (O : oracles) (e : engine) (subs : list rule) (t : txn) : out (txn * bool) :=
  match subs with
  | [] => Ret (t, true)
  | s :: subs' =>
      '(t1, m) <- match_rule O e s t ;;
      if m : bool then match_subs O e subs' t1 else Ret (t1, false)
  end.

(** The [ActionGroup] methods and modsecurity/sec_rule.go:176-183. *)
Definition action_group (a : action) : nat :=
  match a with
  | AStatus _ => 1                              (* ActionGroupData *)
  | ALog => 2                                   (* ActionGroupNonDisruptive *)
  | ADeny | AAllow _ | ABlock | APass => 3      (* ActionGroupDisruptive *)
  | ASkip => 4                                  (* ActionGroupFlow *)
  end.
Definition ActionGroupCount : nat := 5.

(** modsecurity/sec_rule.go:105-108: bucketing; concatenating the buckets gives
    the execution order of lines 109-113. *)
Definition bucket (as_ : list action) (g : nat) : list action :=
  List.filter (fun a => Nat.eqb (action_group a) g) as_.
Definition grouped (as_ : list action) : list action :=
  flat_map (bucket as_) (seq 0 ActionGroupCount).

(** actions/deny.go:23-39 *)
Definition deny_status (data : option Z) : Z :=
  let s := match data with Some s => s | None => 0 end in
  if (100 <=? s) && (s <=? 599) then s else 403.
Definition do_deny (t : txn) : txn :=
  let i := get_iv t in
  let st := if i_status i =? 200 then deny_status (t_status t) else i_status i in
  let t := with_iv t (set_disruptive i st) in
  logf (B "ModSecurity: Access denied with code 403") t.

(** actions/allow.go:27-36 *)
Definition do_allow (arg : bs) (t : txn) : txn :=
  if bs_eqb arg [] then jump_to_phase PhaseLogging t
  else if bs_eqb arg (B "phase") then next_phase t
  else if bs_eqb arg (B "request") then jump_to_phase PhaseResponseHeaders t
  else t.

(** actions/log.go:23-25 *)
Definition do_log (t : txn) : txn :=
  logf (B "ModSecurity: running action in phase " ++ itoa (t_phase t)
        ++ B " rule " ++ itoa (t_cur t)) t.

(** [ActionsExecute] (modsecurity/sec_rule.go:104-114) and the [Do] methods:
    deny.go, allow.go, log.go, pass.go:23-25, skip.go:24-26, status.go:28-30, and
    block.go:24-29 which recurses through ExecuteDefaultActions
    (sec_rule.go:127-129).  Fuel bounds the depth of that recursion. *)
Fixpoint actions_execute (fuel : nat) (rs : ruleset) (as_ : list action) (t : txn) : out txn :=
  match fuel with
  | O => Timeout
  | S fuel' =>
      fold_left
        (fun acc a =>
           t <- acc ;;
           match a with
           | ADeny => Ret (do_deny t)
           | AAllow arg => Ret (do_allow arg t)
           | ABlock => actions_execute fuel' rs (rs_default rs) t
           | ALog => Ret (do_log t)
           | APass => Ret (reset_intervention t)
           | ASkip => Ret (snd (jump_to rs (t_cur t + 2) t))
           | AStatus s => Ret (with_status t (Some s))
           end)
        (grouped as_) (Ret t)
  end.

(** modsecurity/sec_rule.go:99-101 *)
Fixpoint subs_execute (fuel : nat) (rs : ruleset) (subs : list rule) (t : txn) : out txn :=
  match subs with
  | [] => Ret t
  | s :: subs' =>
      t1 <- actions_execute fuel rs (r_acts s) t ;;
      subs_execute fuel rs subs' t1
  end.

(** modsecurity/sec_rule.go:88-102 [Do] *)
Definition do_rule (fuel : nat) (O : oracles) (e : engine) (rs : ruleset) (r : rule) (t : txn)
  : out txn :=
  '(t1, m) <- match_rule O e r t ;;
  if m : bool then
    '(t2, ms) <- match_subs O e (r_subs r) t1 ;;
    if ms : bool then
      t3 <- actions_execute fuel rs (r_acts r) t2 ;;
      subs_execute fuel rs (r_subs r) t3
    else Ret t2
  else Ret t1.

(** modsecurity/sec_rule.go:147-156 [Process]; a negative offset indexes out of
    range. *)
Definition process_rule (fuel : nat) (O : oracles) (e : engine) (rs : ruleset) (phase offset : Z)
  (t : txn) : out txn :=
  if offset <? nrules rs phase then
    if offset <? 0 then Panic
    else match nth_error (phase_rules rs phase) (Z.to_nat offset) with
         | Some r => do_rule fuel O e rs r t
         | None => Panic
         end
  else Ret t.

(** modsecurity/transaction.go:168-175: the rule loop. *)
Fixpoint phase_loop (fuel depth : nat) (O : oracles) (e : engine) (rs : ruleset) (phase next : Z)
  (t : txn) : out txn :=
  match fuel with
  | O => Timeout
  | S fuel' =>
      if (t_phase t =? phase) && negb (next =? StatusEndOfRules) then
        t1 <- process_rule depth O e rs phase next t ;;
        let t2 := touch_iv t1 in
        if i_disruptive (get_iv t2) then Ret t2
        else
          let '(n, t3) := next_rule rs t2 in
          phase_loop fuel' depth O e rs phase n t3
      else Ret t
  end.

(** modsecurity/transaction.go:163-176 [processPhase] *)
Definition process_phase_inner (fuel : nat) (O : oracles) (e : engine) (rs : ruleset) (phase : Z)
  (t : txn) : out txn :=
  if t_abort t then Ret t
  else
    let '(n, t1) := next_rule rs t in
    phase_loop fuel fuel O e rs phase n t1.

(** modsecurity/transaction.go:155-161 [ProcessPhase] *)
Definition process_phase (fuel : nat) (O : oracles) (e : engine) (rs : ruleset) (phase : Z)
  (t : txn) : out txn :=
  if phase <=? t_phase t then Ret t
  else process_phase_inner fuel O e rs phase (jump_to_phase phase t).
