(** Model of the transaction's own methods (modsecurity/transaction.go). *)
From Verif Require Import Base GoStrings Buffer Types.

(** modsecurity/sec_rule.go:7-16 *)
Definition PhaseBegin := 0.
Definition PhaseConnection := 1.
Definition PhaseRequestHeaders := 2.
Definition PhaseRequestBody := 3.
Definition PhaseResponseHeaders := 4.
Definition PhaseResponseBody := 5.
Definition PhaseLogging := 6.
Definition PhaseEnd := 7.

(** modsecurity/transaction.go:31-32 *)
Definition StatusNotStarted := -1.
Definition StatusEndOfRules := -2.

(** [rs.Phases[p]] *)
Fixpoint zassoc (p : Z) (m : list (Z * list rule)) : list rule :=
  match m with
  | [] => []
  | (q, l) :: m' => if p =? q then l else zassoc p m'
  end.
Definition phase_rules (rs : ruleset) (p : Z) : list rule := zassoc p (rs_phases rs).

Definition nrules (rs : ruleset) (p : Z) : Z := Z.of_nat (length (phase_rules rs p)).

(** modsecurity/transaction.go:95-105 [Next]: returned index and new state. *)
Definition next_rule (rs : ruleset) (t : txn) : Z * txn :=
  let cur := t_next t in
  if cur =? StatusEndOfRules then (StatusEndOfRules, with_pos t (t_phase t) cur (t_next t))
  else
    let n := t_next t + 1 in
    let n := if nrules rs (t_phase t) <=? n then StatusEndOfRules else n in
    (cur, with_pos t (t_phase t) cur n).

(** modsecurity/transaction.go:126-133 [JumpTo] *)
Definition jump_to (rs : ruleset) (i : Z) (t : txn) : Z * txn :=
  if nrules rs (t_phase t) <=? i
  then (StatusEndOfRules, with_pos t (t_phase t) (t_cur t) StatusEndOfRules)
  else (i, with_pos t (t_phase t) (t_cur t) i).

(** modsecurity/transaction.go:139-150 [JumpToPhase] *)
Definition jump_to_phase (i : Z) (t : txn) : txn :=
  let i := if i <? PhaseBegin then PhaseBegin
           else if PhaseEnd <=? i then PhaseEnd else i in
  with_pos t i StatusNotStarted 0.

(** modsecurity/transaction.go:151-153 [NextPhase] *)
Definition next_phase (t : txn) : txn := jump_to_phase (t_phase t + 1) t.

(** modsecurity/transaction.go:88-93 [CurrentPhaseRules], 114-124 [CurrentSecRule] *)
Definition current_phase_rules (rs : ruleset) (t : txn) : list rule :=
  if (t_phase t <? PhaseBegin) || (PhaseEnd <? t_phase t) then []
  else phase_rules rs (t_phase t).
Definition current_sec_rule (rs : ruleset) (t : txn) : option rule :=
  let cp := current_phase_rules rs t in
  let cur := t_cur t in
  if (Z.of_nat (length cp) <=? cur) || (cur <? 0) then None
  else nth_error cp (Z.to_nat cur).

(** modsecurity/transaction.go:281-287 [Reset] *)
Definition reset_iv : intervention := Intervention 200 0 None [] false.

(** modsecurity/transaction.go:228-234 [Intervention]: read, and the state after
    the lazy allocation. *)
Definition get_iv (t : txn) : intervention :=
  match t_iv t with Some i => i | None => reset_iv end.
Definition touch_iv (t : txn) : txn := with_iv t (get_iv t).

(** modsecurity/transaction.go:235-240 [ResetIntervention]; all fields are
    overwritten, so the previous value does not matter. *)
Definition reset_intervention (t : txn) : txn := with_iv t reset_iv.

(** modsecurity/transaction.go:265-271 [Logf], with the message already
    formatted. *)
Definition log_prefix (t : txn) : bs :=
  B "[client " ++ t_srcip t ++ B ":" ++ t_srcport t ++ B "] (phase "
  ++ itoa (t_phase t) ++ B ") ".
Definition add_log (i : intervention) (l : bs) : intervention :=
  Intervention (i_status i) (i_pause i) (i_url i) (i_log i ++ [l]) (i_disruptive i).
Definition logf (msg : bs) (t : txn) : txn :=
  with_iv t (add_log (get_iv t) (log_prefix t ++ msg)).

Definition set_disruptive (i : intervention) (status : Z) : intervention :=
  Intervention status (i_pause i) (i_url i) (i_log i) true.

(** modsecurity/transaction.go:242-248 [AbortWithError]; [msg] is err.Error(). *)
Definition abort_with_error (status : Z) (msg : bs) (t : txn) : txn :=
  let t := with_abort t true in
  let t := with_iv t (set_disruptive (get_iv t) status) in
  logf (B "abort process with error " ++ msg) t.

(** modsecurity/transaction.go:250-255 [AbortWithStatus] *)
Definition abort_with_status (status : Z) (t : txn) : txn :=
  let t := with_abort t true in
  with_iv t (set_disruptive (get_iv t) status).

(** modsecurity/transaction.go:257-263 [Result] *)
Definition result (t : txn) : intervention * txn :=
  let t := touch_iv t in
  (get_iv t, if t_abort t then t else with_iv t reset_iv).
