(** Model of the engine and of the public API of a transaction as a state
    machine: modsecurity/engine.go, modsecurity/transaction.go:58-86 and 178-271. *)
From Verif Require Import Base GoStrings Buffer Types Transaction Variables Rules.

(** modsecurity/sec_rule.go:116-120 *)
Definition new_ruleset : ruleset := RuleSet [] [].

(** modsecurity/engine.go:28-42 [NewEngine] with the default limits. *)
Definition new_engine : engine := Engine false false new_ruleset false false 134217728 131072 524228.

(** modsecurity/engine.go:44-48 and 51-63 [Enable] *)
Inductive mode := StatusOn | StatusOff | StatusDect.
Definition set_mode (e : engine) (en det : bool) : engine :=
  Engine en det (e_ruleset e) (e_reqaccess e) (e_resaccess e) (e_reqlimit e) (e_reqmem e) (e_reslimit e).
Definition enable (s : mode) (e : engine) : engine :=
  match s with
  | StatusOn => set_mode e true false
  | StatusOff => set_mode e false false
  | StatusDect => set_mode e false true
  end.

Definition set_ruleset (e : engine) (rs : ruleset) : engine :=
  Engine (e_enabled e) (e_detection e) rs (e_reqaccess e) (e_resaccess e) (e_reqlimit e) (e_reqmem e) (e_reslimit e).
Definition set_reqaccess (e : engine) (b : bool) : engine :=
  Engine (e_enabled e) (e_detection e) (e_ruleset e) b (e_resaccess e) (e_reqlimit e) (e_reqmem e) (e_reslimit e).
Definition set_resaccess (e : engine) (b : bool) : engine :=
  Engine (e_enabled e) (e_detection e) (e_ruleset e) (e_reqaccess e) b (e_reqlimit e) (e_reqmem e) (e_reslimit e).

(** [rs.Phases[p] = append(rs.Phases[p], r)] *)
Fixpoint phases_append (p : Z) (r : rule) (m : list (Z * list rule)) : list (Z * list rule) :=
  match m with
  | [] => [(p, [r])]
  | (q, l) :: m' => if p =? q then (q, l ++ [r]) :: m' else (q, l) :: phases_append p r m'
  end.

(** modsecurity/sec_rule.go:135-145 [AddRules] *)
Fixpoint add_rules (rules : list rule) (rs : ruleset) : ruleset :=
  match rules with
  | [] => rs
  | r :: rules' =>
      if (PhaseEnd <=? r_phase r) || (r_phase r <=? PhaseBegin) then add_rules rules' rs
      else add_rules rules' (RuleSet (phases_append (r_phase r) r (rs_phases rs)) (rs_default rs))
  end.

(** modsecurity/sec_rule.go:131-133 [AddDefaultActions] *)
Definition add_default_actions (as_ : list action) (rs : ruleset) : ruleset :=
  RuleSet (rs_phases rs) (rs_default rs ++ as_).

(** modsecurity/engine.go:65-67 [AddSecRule] *)
Definition add_sec_rule (rules : list rule) (e : engine) : engine :=
  set_ruleset e (add_rules rules (e_ruleset e)).

(** modsecurity/transaction.go:58-86 [NewTransaction]; nil arguments are [None],
    [dir_ok] is the outcome of makeBufferDir (buffer.go:126-138) which both
    newBuffer calls run on the same directory. *)
Definition new_txn (e : engine) : txn :=
  Txn false [] [] [] [] None [] [] [] (new_buffer (e_reqmem e) (e_reqlimit e))
      0 [] [] (new_buffer (e_reslimit e) (e_reslimit e))
      false None None None PhaseBegin StatusNotStarted 0 None 0.
Definition new_transaction (dir_ok : bool) (e : option engine) (rs : option ruleset) : option txn :=
  match e, rs with
  | Some e, Some _ => if dir_ok then Some (new_txn e) else None
  | _, _ => None
  end.

(** The exported methods of [Transaction] a caller drives it with. *)
Inductive op :=
| OpConnection (srcip srcport dstip dstport : bs)   (* transaction.go:178-184 *)
| OpRequestURL (u : option url) (method proto : bs) (* transaction.go:185-189 *)
| OpRequestHeader (h : vals)                        (* transaction.go:190-196 *)
| OpAppendRequestBody (p : bs) (ft : wfault)        (* transaction.go:197-200 *)
| OpRequestBody                                     (* transaction.go:202-204 *)
| OpResponseHeaders (code : Z) (proto : bs) (h : vals) (* transaction.go:206-214 *)
| OpAppendResponseBody (p : bs) (ft : wfault)       (* transaction.go:215-218 *)
| OpResponseBody                                    (* transaction.go:220-222 *)
| OpLogging                                         (* transaction.go:224-226 *)
| OpResult                                          (* transaction.go:257-263 *)
| OpAbortWithStatus (code : Z).                     (* transaction.go:250-255 *)

(** What the caller sees. *)
Inductive obs :=
| ObsNone
| ObsErr (e : option berr)
| ObsResult (i : intervention).

Definition step (fuel : nat) (O : oracles) (e : engine) (rs : ruleset) (o : op) (t : txn)
  : out (txn * obs) :=
  let run p t := t' <- process_phase fuel O e rs p t ;; Ret (t', ObsNone) in
  match o with
  | OpConnection a b c d => run PhaseConnection (with_net t a b c d)
  | OpRequestURL u m p => Ret (with_request t u m p, ObsNone)
  | OpRequestHeader h => run PhaseRequestHeaders (with_reqheader t h)
  | OpAppendRequestBody p ft =>
      '(b, _, er) <- buf_write ft p (t_reqbody t) ;;
      Ret (with_reqbody t b, ObsErr er)
  | OpRequestBody => run PhaseRequestBody t
  | OpResponseHeaders c p h => run PhaseResponseHeaders (with_response t c p h)
  | OpAppendResponseBody p ft =>
      '(b, _, er) <- buf_write ft p (t_resbody t) ;;
      Ret (with_resbody t b, ObsErr er)
  | OpResponseBody => run PhaseResponseBody t
  | OpLogging => run PhaseLogging t
  | OpResult => let '(i, t') := result t in Ret (t', ObsResult i)
  | OpAbortWithStatus c => Ret (abort_with_status c t, ObsNone)
  end.

Fixpoint steps (fuel : nat) (O : oracles) (e : engine) (rs : ruleset) (os : list op) (t : txn)
  : out (txn * list obs) :=
  match os with
  | [] => Ret (t, [])
  | o :: os' =>
      '(t1, b) <- step fuel O e rs o t ;;
      '(t2, bs_) <- steps fuel O e rs os' t1 ;;
      Ret (t2, b :: bs_)
  end.
