(** What it means that results are copies: the same events where every log is a
    value of its own. *)
From Verif Require Import Base Types Engine Slices.

Record vworld := VWorld { u_abort : bool; u_own : option intervention; u_given : list intervention }.
Definition fresh_vworld : vworld := VWorld false None [].
Definition blank_iv : intervention := Intervention 200 0 None [] false.
Definition u_cur (u : vworld) : intervention := match u_own u with Some i => i | None => blank_iv end.

Definition with_line (i : intervention) (f : list bs -> list bs) : intervention :=
  Intervention (i_status i) (i_pause i) (i_url i) (f (i_log i)) (i_disruptive i).
Definition marked (i : intervention) (st : Z) : intervention := Intervention st (i_pause i) (i_url i) (i_log i) true.

(** One event; an edit says which result it edits and how its log changes. *)
Inductive values : event -> vworld -> vworld -> Prop :=
| val_touch : forall u, values EvTouch u (VWorld (u_abort u) (Some (u_cur u)) (u_given u))
| val_log : forall l u, values (EvLog l) u (VWorld (u_abort u) (Some (with_line (u_cur u) (fun x => x ++ [l]))) (u_given u))
| val_mark : forall st u, values (EvMark st) u (VWorld (u_abort u) (Some (marked (u_cur u) st)) (u_given u))
| val_abort : forall c u, values (EvAbort c) u (VWorld true (Some (marked (u_cur u) c)) (u_given u))
| val_abort_error : forall c l u,
    values (EvAbortError c l) u (VWorld true (Some (with_line (marked (u_cur u) c) (fun x => x ++ [l]))) (u_given u))
| val_reset : forall u, values EvReset u (VWorld (u_abort u) (Some blank_iv) (u_given u))
| val_result_last : forall u, u_abort u = true ->
    values EvResult u (VWorld true (Some (u_cur u)) (u_given u ++ [u_cur u]))
| val_result : forall u, u_abort u = false ->
    values EvResult u (VWorld false (Some blank_iv) (u_given u ++ [u_cur u]))
| val_append : forall a i b l ab ow,
    values (EvAppend (length a) l) (VWorld ab ow (a ++ i :: b)) (VWorld ab ow (a ++ with_line i (fun x => x ++ [l]) :: b))
| val_set : forall a i b x y z l ab ow, i_log i = x ++ y :: z ->
    values (EvSet (length a) (length x) l) (VWorld ab ow (a ++ i :: b))
           (VWorld ab ow (a ++ with_line i (fun _ => x ++ l :: z) :: b))
| val_drop : forall a i b ab ow,
    values (EvDrop (length a)) (VWorld ab ow (a ++ i :: b)) (VWorld ab ow (a ++ with_line i (fun _ => []) :: b)).
Inductive values_all : list event -> vworld -> vworld -> Prop :=
| vals_nil : forall u, values_all [] u u
| vals_cons : forall ev es u u1 u2, values ev u u1 -> values_all es u1 u2 -> values_all (ev :: es) u u2.

(** The arrays show exactly these values. *)
Definition shows (w : world) (u : vworld) : Prop :=
  w_abort w = u_abort u /\ option_map (seen (w_heap w)) (w_own w) = u_own u /\
  map (seen (w_heap w)) (w_given w) = u_given u.
Definition shows_own (w : world) (u : vworld) : Prop :=
  w_abort w = u_abort u /\ option_map (seen (w_heap w)) (w_own w) = u_own u.

(** Which result an edit is about. *)
Definition edited (ev : event) : option nat :=
  match ev with EvAppend k _ | EvSet k _ _ | EvDrop k => Some k | _ => None end.
Definition is_edit (ev : event) : Prop := edited ev <> None.
Definition logs (ev : event) : Prop := match ev with EvLog _ | EvAbortError _ _ => True | _ => False end.
Definition aborts (ev : event) : Prop := match ev with EvAbort _ | EvAbortError _ _ => True | _ => False end.

(** In a history [es] of a new transaction the [k]-th result (counted from 0) was handed out after the
    abort. *)
Definition handed_late (es : list event) (k : nat) : Prop :=
  exists a b, es = a ++ EvResult :: b /\ length (List.filter (fun ev => match ev with EvResult => true | _ => false end) a) = k /\
  Exists aborts a.

(** Every edit is of a result handed out before the abort. *)
Definition edits_early (es : list event) : Prop :=
  forall a ev b k, es = a ++ ev :: b -> edited ev = Some k -> ~ handed_late a k.
(** The caller only adds lines or lets go, and nothing is logged once a result has been handed
    out after the abort. *)
Definition edits_add (es : list event) : Prop :=
  (forall k j l, ~ In (EvSet k j l) es) /\
  forall a ev b k, es = a ++ ev :: b -> logs ev -> ~ handed_late a k.

(** What an API call can do to the intervention of a transaction. *)
Definition inner (ev : event) : Prop :=
  match ev with EvTouch | EvLog _ | EvMark _ | EvAbortError _ _ | EvReset => True | _ => False end.
Definition runs_phase (o : op) : bool :=
  match o with
  | OpConnection _ _ _ _ | OpRequestHeader _ | OpRequestBody | OpResponseHeaders _ _ _ | OpResponseBody | OpLogging => true
  | _ => false
  end.
Inductive call_events (aborted : bool) : op -> list event -> Prop :=
| ce_result : call_events aborted OpResult [EvResult]
| ce_abort : forall c, call_events aborted (OpAbortWithStatus c) [EvAbort c]
| ce_phase : forall o es, runs_phase o = true -> Forall inner es -> (aborted = true -> es = []) -> call_events aborted o es
| ce_other : forall o, runs_phase o = false -> o <> OpResult -> (forall c, o <> OpAbortWithStatus c) ->
    call_events aborted o [].

(** The results a list of observations contains. *)
Definition results (l : list obs) : list intervention :=
  flat_map (fun b => match b with ObsResult i => [i] | _ => [] end) l.
(** A run of API calls, with the events that explain what each call did to the intervention. *)
Inductive history (fuel : nat) (O : oracles) (e : engine) (rs : ruleset) :
  txn -> list op -> list (list event) -> txn -> list obs -> Prop :=
| hi_nil : forall t, history fuel O e rs t [] [] t []
| hi_cons : forall o os es ess t t1 t2 b bl,
    step fuel O e rs o t = Ret (t1, b) ->
    call_events (t_abort t) o es ->
    values_all es (VWorld (t_abort t) (t_iv t) []) (VWorld (t_abort t1) (t_iv t1) (results [b])) ->
    history fuel O e rs t1 os ess t2 bl ->
    history fuel O e rs t (o :: os) (es :: ess) t2 (b :: bl).

(** The caller does something before each call. *)
Fixpoint weave (eds ess : list (list event)) : list event :=
  match eds, ess with
  | ed :: eds', es :: ess' => ed ++ es ++ weave eds' ess'
  | _, _ => concat ess
  end.
Definition only_edits (eds : list (list event)) : Prop := Forall (Forall is_edit) eds.
Definition only_adds (eds : list (list event)) : Prop :=
  Forall (Forall (fun ev => match ev with EvAppend _ _ | EvDrop _ => True | _ => False end)) eds.
