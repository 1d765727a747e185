(** Model of several goroutines at once, each making its calls on a transaction of its own, in steps small
    enough to be interleaved inside a call: one variable fetched, one value looked at, one action run, one turn
    of the rule loop.  Engines and rule sets are only read (nobody changes them while the goroutines run; the
    code has no locks, and AddRules writes to the map that Process reads).  The work left is an explicit stack
    instead of fuel; the only step that may not end is fetching a variable for which the standard library's form
    parser does not return, and a goroutine in such a step stays where it is.

    The pieces that touch nothing but the transaction are those of Rules.v, Variables.v and Transaction.v;
    the control flow is written again here from the same lines. *)
From Verif Require Import Base GoStrings Buffer Types Transforms Operators Transaction Variables Rules Engine.

(** What a goroutine still has to do in the call it is in; the next first. *)
Inductive task :=
| TLoop (p n : Z)                       (* transaction.go:168, the condition of the rule loop *)
| TNext (p : Z)                         (* transaction.go:170-174, after a rule *)
| TMatch (todo all : list rule)         (* sec_rule.go:88-97, the rules of a chain still to match *)
| TFetch (r : rule) (vs : list variable) (got : list bs) (todo all : list rule)  (* sec_rule.go:68-74 *)
| TValues (r : rule) (vals : list bs) (todo all : list rule)                     (* sec_rule.go:77-85 *)
| TSubs (l : list rule)                 (* sec_rule.go:98-101, the rules whose actions are still to run *)
| TActs (l : list action)               (* sec_rule.go:109-113, the actions still to run *)
| TReturn (b : obs).                    (* the end of the call *)

(** A goroutine: the engine and rules it works with, its transaction, its work, the calls it will make and what
    it has been answered. *)
Record thread := Thread {
  th_eng : engine; th_rules : ruleset; th_txn : txn; th_work : list task; th_todo : list op; th_seen : list obs
}.
Definition new_thread (e : engine) (rs : ruleset) (os : list op) : thread := Thread e rs (new_txn e) [] os [].

(** The [Do] methods but block's (actions/*.go, Rules.v). *)
Definition plain_action (rs : ruleset) (a : action) (t : txn) : txn :=
  match a with
  | ADeny => do_deny t
  | AAllow arg => do_allow arg t
  | ABlock => t
  | ALog => do_log t
  | APass => reset_intervention t
  | ASkip => snd (jump_to rs (t_cur t + 2) t)
  | AStatus s => with_status t (Some s)
  end.

(** One step inside a call. *)
Definition micro (O : oracles) (e : engine) (rs : ruleset) (t : txn) (x : task) (k : list task) : out (txn * list task) :=
  match x with
  | TLoop p n =>
      if (t_phase t =? p) && negb (n =? StatusEndOfRules) then
        (* sec_rule.go:147-156 *)
        if n <? nrules rs p then
          if n <? 0 then Panic
          else match nth_error (phase_rules rs p) (Z.to_nat n) with
               | Some r => Ret (t, TMatch (r :: r_subs r) (r :: r_subs r) :: TNext p :: k)
               | None => Panic
               end
        else Ret (t, TNext p :: k)
      else Ret (t, k)
  | TNext p =>
      let t := touch_iv t in
      if i_disruptive (get_iv t) then Ret (t, k)
      else let '(n, t) := next_rule rs t in Ret (t, TLoop p n :: k)
  | TMatch [] all => Ret (t, TSubs all :: k)
  | TMatch (r :: todo) all => Ret (t, TFetch r (r_vars r) [] todo all :: k)
  | TFetch r [] got todo all => Ret (t, TValues r got todo all :: k)
  | TFetch r (v :: vs) got todo all =>
      '(t1, a) <- transform_variable O e r v t ;;
      Ret (t1, TFetch r vs (got ++ a) todo all :: k)
  | TValues r [] todo all => Ret (t, k)
  | TValues r (v :: vs) todo all =>
      if t_abort t then Ret (t, k)
      else match r_op r with
           | None => Panic
           | Some o =>
               if negb (Bool.eqb (r_not r) (op_match O o v)) then Ret (t, TMatch todo all :: k)
               else Ret (t, TValues r vs todo all :: k)
           end
  | TSubs [] => Ret (t, k)
  | TSubs (r :: l) => Ret (t, TActs (grouped (r_acts r)) :: TSubs l :: k)
  | TActs [] => Ret (t, k)
  | TActs (ABlock :: l) => Ret (t, TActs (grouped (rs_default rs)) :: TActs l :: k)   (* block.go:24-29, sec_rule.go:127-129 *)
  | TActs (a :: l) => Ret (plain_action rs a t, TActs l :: k)
  | TReturn _ => Ret (t, k)
  end.

(** The beginning of a call: the data stored, and transaction.go:155-167. *)
Definition begin (rs : ruleset) (o : op) (t : txn) : out (txn * list task) :=
  let run p t :=
    if p <=? t_phase t then Ret (t, [TReturn ObsNone])
    else
      let t := jump_to_phase p t in
      if t_abort t then Ret (t, [TReturn ObsNone])
      else let '(n, t) := next_rule rs t in Ret (t, [TLoop p n; TReturn ObsNone]) in
  match o with
  | OpConnection a b c d => run PhaseConnection (with_net t a b c d)
  | OpRequestURL u m p => Ret (with_request t u m p, [TReturn ObsNone])
  | OpRequestHeader h => run PhaseRequestHeaders (with_reqheader t h)
  | OpAppendRequestBody p ft =>
      '(b, _, er) <- buf_write ft p (t_reqbody t) ;;
      Ret (with_reqbody t b, [TReturn (ObsErr er)])
  | OpRequestBody => run PhaseRequestBody t
  | OpResponseHeaders c p h => run PhaseResponseHeaders (with_response t c p h)
  | OpAppendResponseBody p ft =>
      '(b, _, er) <- buf_write ft p (t_resbody t) ;;
      Ret (with_resbody t b, [TReturn (ObsErr er)])
  | OpResponseBody => run PhaseResponseBody t
  | OpLogging => run PhaseLogging t
  | OpResult => let '(i, t') := result t in Ret (t', [TReturn (ObsResult i)])
  | OpAbortWithStatus c => Ret (abort_with_status c t, [TReturn ObsNone])
  end.

(** One step of a goroutine; one that has made all its calls stays as it is, and so does one in a step that
    does not end. *)
Definition turn_of (O : oracles) (th : thread) : out thread :=
  match th_work th with
  | [] =>
      match th_todo th with
      | [] => Ret th
      | o :: os =>
          match begin (th_rules th) o (th_txn th) with
          | Ret (t, w) => Ret (Thread (th_eng th) (th_rules th) t w os (th_seen th))
          | Panic => Panic
          | Timeout => Ret th
          end
      end
  | x :: k =>
      match micro O (th_eng th) (th_rules th) (th_txn th) x k with
      | Ret (t, w) =>
          Ret (Thread (th_eng th) (th_rules th) t w (th_todo th)
                 match x with TReturn b => th_seen th ++ [b] | _ => th_seen th end)
      | Panic => Panic
      | Timeout => Ret th
      end
  end.
Fixpoint turns_of (n : nat) (O : oracles) (th : thread) : out thread :=
  match n with
  | O => Ret th
  | S n' => th1 <- turn_of O th ;; turns_of n' O th1
  end.

(** Goroutines taking steps in the order of a schedule; a panic in one ends the program. *)
Fixpoint replace {A} (n : nat) (x : A) (l : list A) : list A :=
  match l, n with
  | [], _ => []
  | _ :: l', O => x :: l'
  | y :: l', S n' => y :: replace n' x l'
  end.
Fixpoint scheduled (O : oracles) (ks : list nat) (ths : list thread) : out (list thread) :=
  match ks with
  | [] => Ret ths
  | k :: ks' =>
      match nth_error ths k with
      | None => scheduled O ks' ths
      | Some th => th' <- turn_of O th ;; scheduled O ks' (replace k th' ths)
      end
  end.
