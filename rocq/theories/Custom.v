(** Model of rule evaluation for rules built from any implementations of the interfaces
    [Variable], [Trans], [Operator] and [Action] (modsecurity/sec_rule.go:158-190), not
    only those of the repository: a caller may define its own, as
    modsecurity/engine_test.go:9-63 does.  The loops are those of Rules.v; here the
    parts they call are arbitrary functions of the transaction and of a private
    state [X] that belongs to the caller.  Simplifications: [ActionGroup] answers the same
    on both calls of line 107 and depends on the action only; the parts do not replace
    the transaction's rule set while a phase runs. *)
From Verif Require Import Base GoStrings Buffer Types Transaction Engine.

(** The transaction a part is handed, and what else it can reach. *)
Definition st (X : Type) : Type := (txn * X)%type.

(** modsecurity/sec_rule.go:185-190 *)
Record caction (X : Type) := CAction { ca_group : Z; ca_do : st X -> out (st X) }.
Arguments CAction {X}. Arguments ca_group {X}. Arguments ca_do {X}.

(** modsecurity/sec_rule.go:18-28; a nil Operator is [None].  [Id] and [MetaData] are not
    consulted by evaluation, [Phase] only by AddRules. *)
Inductive crule (X : Type) := CRule {
  c_vars : list (st X -> out (st X * list bs));          (* Fetch *)
  c_trans : list (st X -> bs -> out (st X * bs));        (* Trans *)
  c_op : option (st X -> bs -> out (st X * bool));       (* Match *)
  c_acts : list (caction X);
  c_not : bool;
  c_subs : list (crule X)
}.
Arguments CRule {X}. Arguments c_vars {X}. Arguments c_trans {X}. Arguments c_op {X}.
Arguments c_acts {X}. Arguments c_not {X}. Arguments c_subs {X}.

(** modsecurity/sec_rule.go:53-58 [TransformString] *)
Fixpoint c_transform {X} (ts : list (st X -> bs -> out (st X * bs))) (s : st X) (v : bs) : out (st X * bs) :=
  match ts with
  | [] => Ret (s, v)
  | f :: ts' => '(s1, v1) <- f s v ;; c_transform ts' s1 v1
  end.
(** modsecurity/sec_rule.go:62-64: the loop of [TransformVariable] *)
Fixpoint c_transform_all {X} (ts : list (st X -> bs -> out (st X * bs))) (s : st X) (vs : list bs)
  : out (st X * list bs) :=
  match vs with
  | [] => Ret (s, [])
  | v :: vs' =>
      '(s1, w) <- c_transform ts s v ;;
      '(s2, ws) <- c_transform_all ts s1 vs' ;;
      Ret (s2, w :: ws)
  end.
(** modsecurity/sec_rule.go:68-74 [FetchAllTransformedVariables] *)
Fixpoint c_fetch_all {X} (ts : list (st X -> bs -> out (st X * bs))) (fs : list (st X -> out (st X * list bs)))
  (s : st X) : out (st X * list bs) :=
  match fs with
  | [] => Ret (s, [])
  | f :: fs' =>
      '(s1, vs) <- f s ;;
      '(s2, ws) <- c_transform_all ts s1 vs ;;
      '(s3, rest) <- c_fetch_all ts fs' s2 ;;
      Ret (s3, ws ++ rest)
  end.
(** modsecurity/sec_rule.go:77-85 *)
Fixpoint c_match_values {X} (op : option (st X -> bs -> out (st X * bool))) (neg : bool) (s : st X) (vs : list bs)
  : out (st X * bool) :=
  match vs with
  | [] => Ret (s, false)
  | v :: vs' =>
      if t_abort (fst s) then Ret (s, false)
      else match op with
           | None => Panic
           | Some f =>
               '(s1, m) <- f s v ;;
               if negb (Bool.eqb neg m) then Ret (s1, true) else c_match_values op neg s1 vs'
           end
  end.
(** modsecurity/sec_rule.go:76-86 [Match] *)
Definition c_match {X} (r : crule X) (s : st X) : out (st X * bool) :=
  '(s1, vs) <- c_fetch_all (c_trans r) (c_vars r) s ;;
  c_match_values (c_op r) (c_not r) s1 vs.
(** modsecurity/sec_rule.go:93-97 *)
Fixpoint c_match_subs {X} (subs : list (crule X)) (s : st X) : out (st X * bool) :=
  match subs with
  | [] => Ret (s, true)
  | r :: subs' =>
      '(s1, m) <- c_match r s ;;
      if m : bool then c_match_subs subs' s1 else Ret (s1, false)
  end.

(** modsecurity/sec_rule.go:105-108: an index outside the five groups panics; 109-113. *)
Fixpoint c_run {X} (l : list (caction X)) (s : st X) : out (st X) :=
  match l with
  | [] => Ret s
  | a :: l' => s1 <- ca_do a s ;; c_run l' s1
  end.
Definition c_bucket {X} (l : list (caction X)) (g : Z) : list (caction X) :=
  List.filter (fun a => ca_group a =? g) l.
Definition c_actions {X} (l : list (caction X)) (s : st X) : out (st X) :=
  if forallb (fun a => (0 <=? ca_group a) && (ca_group a <? 5)) l
  then c_run (flat_map (c_bucket l) [0; 1; 2; 3; 4]) s
  else Panic.
(** modsecurity/sec_rule.go:99-101 *)
Fixpoint c_subs_actions {X} (subs : list (crule X)) (s : st X) : out (st X) :=
  match subs with
  | [] => Ret s
  | r :: subs' => s1 <- c_actions (c_acts r) s ;; c_subs_actions subs' s1
  end.
(** modsecurity/sec_rule.go:88-102 [Do] *)
Definition c_do_rule {X} (r : crule X) (s : st X) : out (st X) :=
  '(s1, m) <- c_match r s ;;
  if m : bool then
    '(s2, ms) <- c_match_subs (c_subs r) s1 ;;
    if ms : bool then
      s3 <- c_actions (c_acts r) s2 ;;
      c_subs_actions (c_subs r) s3
    else Ret s2
  else Ret s1.

(** modsecurity/sec_rule.go:122-125; default actions are reached through actions that
    execute them, such as block. *)
Definition cset (X : Type) : Type := list (Z * list (crule X)).
Fixpoint c_phase {X} (p : Z) (m : cset X) : list (crule X) :=
  match m with
  | [] => []
  | (q, l) :: m' => if p =? q then l else c_phase p m'
  end.
Definition c_count {X} (m : cset X) (p : Z) : Z := Z.of_nat (length (c_phase p m)).

(** modsecurity/sec_rule.go:147-156 [Process] *)
Definition c_process_rule {X} (m : cset X) (phase offset : Z) (s : st X) : out (st X) :=
  if offset <? c_count m phase then
    if offset <? 0 then Panic
    else match nth_error (c_phase phase m) (Z.to_nat offset) with
         | Some r => c_do_rule r s
         | None => Panic
         end
  else Ret s.

(** modsecurity/transaction.go:95-105 [Next] *)
Definition c_next {X} (m : cset X) (t : txn) : Z * txn :=
  let cur := t_next t in
  if cur =? StatusEndOfRules then (StatusEndOfRules, with_pos t (t_phase t) cur (t_next t))
  else
    let n := t_next t + 1 in
    let n := if c_count m (t_phase t) <=? n then StatusEndOfRules else n in
    (cur, with_pos t (t_phase t) cur n).

(** modsecurity/transaction.go:168-175 *)
Fixpoint c_loop {X} (fuel : nat) (m : cset X) (phase next : Z) (s : st X) : out (st X) :=
  match fuel with
  | O => Timeout
  | S fuel' =>
      if (t_phase (fst s) =? phase) && negb (next =? StatusEndOfRules) then
        '(t1, x) <- c_process_rule m phase next s ;;
        let t2 := touch_iv t1 in
        if i_disruptive (get_iv t2) then Ret (t2, x)
        else
          let '(n, t3) := c_next m t2 in
          c_loop fuel' m phase n (t3, x)
      else Ret s
  end.
(** modsecurity/transaction.go:155-176 [ProcessPhase], [processPhase] *)
Definition c_process_phase {X} (fuel : nat) (m : cset X) (phase : Z) (s : st X) : out (st X) :=
  let '(t, x) := s in
  if phase <=? t_phase t then Ret s
  else
    let t := jump_to_phase phase t in
    if t_abort t then Ret (t, x)
    else
      let '(n, t1) := c_next m t in
      c_loop fuel m phase n (t1, x).

(** The calls of the API (Engine.v, [step]) over such rules. *)
Definition c_step {X} (fuel : nat) (m : cset X) (o : op) (s : st X) : out (st X * obs) :=
  let '(t, x) := s in
  let run p t := s' <- c_process_phase fuel m p (t, x) ;; Ret (s', ObsNone) in
  match o with
  | OpConnection a b c d => run PhaseConnection (with_net t a b c d)
  | OpRequestURL u mt p => Ret ((with_request t u mt p, x), ObsNone)
  | OpRequestHeader h => run PhaseRequestHeaders (with_reqheader t h)
  | OpAppendRequestBody p ft =>
      '(b, _, er) <- buf_write ft p (t_reqbody t) ;;
      Ret ((with_reqbody t b, x), ObsErr er)
  | OpRequestBody => run PhaseRequestBody t
  | OpResponseHeaders c p h => run PhaseResponseHeaders (with_response t c p h)
  | OpAppendResponseBody p ft =>
      '(b, _, er) <- buf_write ft p (t_resbody t) ;;
      Ret ((with_resbody t b, x), ObsErr er)
  | OpResponseBody => run PhaseResponseBody t
  | OpLogging => run PhaseLogging t
  | OpResult => let '(i, t') := result t in Ret ((t', x), ObsResult i)
  | OpAbortWithStatus c => Ret ((abort_with_status c t, x), ObsNone)
  end.
Fixpoint c_steps {X} (fuel : nat) (m : cset X) (os : list op) (s : st X) : out (st X * list obs) :=
  match os with
  | [] => Ret (s, [])
  | o :: os' =>
      '(s1, b) <- c_step fuel m o s ;;
      '(s2, bl) <- c_steps fuel m os' s1 ;;
      Ret (s2, b :: bl)
  end.
