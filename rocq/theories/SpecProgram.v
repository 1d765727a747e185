(** Specification vocabulary: what the engines, rule sets, directive sets and transactions of a
    program are, told from the operations it has performed, the latest first. *)
From Verif Require Import Base GoStrings Buffer Types Transaction Engine Scanner Loader SpecParse SpecLoad World.

(** What reading a text adds to a directive set, and whether it is reported as read: all its
    directives; those before the first that cannot be loaded; or none, if the text is malformed.  A text
    that is never read to its end ([stuck_file], C53) adds nothing, since nothing is reported. *)
Inductive text_adds (O : oracles) (n : nat) (text : bs) : bool -> list dire -> Prop :=
| ta_all : forall ds items l, file_text ds text -> loaded O n ds items -> assembled items l -> text_adds O n text true l
| ta_some : forall ds1 d ds2 items l, file_text (ds1 ++ d :: ds2) text -> loaded O n ds1 items -> ~ loadable O d -> assembled items l ->
    text_adds O n text false l
| ta_none : (forall ds, ~ file_text ds text) -> ~ stuck_file text -> text_adds O n text false [].

Section Past.
(** What each text adds. *)
Variable read : nat -> bs -> list dire.

(** How many objects of each kind there are. *)
Fixpoint engines (past : list wop) : nat :=
  match past with WNewEngine :: past' => S (engines past') | _ :: past' => engines past' | [] => 0 end.
Fixpoint sets (past : list wop) : nat :=
  match past with WNewEngine :: past' | WNewSet :: past' => S (sets past') | _ :: past' => sets past' | [] => 0 end.
Fixpoint dsets (past : list wop) : nat :=
  match past with WNewDires :: past' => S (dsets past') | _ :: past' => dsets past' | [] => 0 end.

(** The directives in set [d]. *)
Fixpoint dires_of (past : list wop) (d : nat) : list dire :=
  match past with
  | [] => []
  | WNewDires :: past' => if Nat.eqb d (dsets past') then [] else dires_of past' d
  | WAddText d' n text :: past' => if Nat.eqb d d' then dires_of past' d ++ read n text else dires_of past' d
  | _ :: past' => dires_of past' d
  end.
(** The rule set of engine [i]: the one made with it or the one it was given last. *)
Fixpoint set_of (past : list wop) (i : nat) : option nat :=
  match past with
  | [] => None
  | WNewEngine :: past' => if Nat.eqb i (engines past') then Some (sets past') else set_of past' i
  | WPoint i' j :: past' => if Nat.eqb i i' then j else set_of past' i
  | _ :: past' => set_of past' i
  end.
(** Enabled and DetectionOnly of engine [i]: by the last call of Enable or directive SecRuleEngine. *)
Fixpoint mode_of (past : list wop) (i : nat) : bool * bool :=
  match past with
  | [] => (false, false)
  | WNewEngine :: past' => if Nat.eqb i (engines past') then (false, false) else mode_of past' i
  | WEnable i' s :: past' =>
      if Nat.eqb i i' then match s with StatusOn => (true, false) | StatusOff => (false, false) | StatusDect => (false, true) end
      else mode_of past' i
  | WExecute d i' :: past' => if Nat.eqb i i' then last (modes (dires_of past' d)) (mode_of past' i) else mode_of past' i
  | _ :: past' => mode_of past' i
  end.
(** Whether bodies are seen: by the last setting or directive. *)
Fixpoint req_of (past : list wop) (i : nat) : bool :=
  match past with
  | [] => false
  | WNewEngine :: past' => if Nat.eqb i (engines past') then false else req_of past' i
  | WLimits i' req _ _ _ _ :: past' => if Nat.eqb i i' then req else req_of past' i
  | WExecute d i' :: past' => if Nat.eqb i i' then last (req_flags (dires_of past' d)) (req_of past' i) else req_of past' i
  | _ :: past' => req_of past' i
  end.
Fixpoint res_of (past : list wop) (i : nat) : bool :=
  match past with
  | [] => false
  | WNewEngine :: past' => if Nat.eqb i (engines past') then false else res_of past' i
  | WLimits i' _ res _ _ _ :: past' => if Nat.eqb i i' then res else res_of past' i
  | WExecute d i' :: past' => if Nat.eqb i i' then last (res_flags (dires_of past' d)) (res_of past' i) else res_of past' i
  | _ :: past' => res_of past' i
  end.
(** RequestBody, RequestBodyInMem and ResponseBody: 128 MiB, 128 KiB and 524228 bytes unless set. *)
Fixpoint sizes_of (past : list wop) (i : nat) : Z * Z * Z :=
  match past with
  | [] => (0, 0, 0)
  | WNewEngine :: past' => if Nat.eqb i (engines past') then (128 * 1024 * 1024, 128 * 1024, 524228) else sizes_of past' i
  | WLimits i' _ _ reqlimit reqmem reslimit :: past' => if Nat.eqb i i' then (reqlimit, reqmem, reslimit) else sizes_of past' i
  | _ :: past' => sizes_of past' i
  end.
Definition points_to (past : list wop) (i j : nat) : bool :=
  match set_of past i with Some j' => Nat.eqb j j' | None => false end.
(** The rules given to rule set [j], in order. *)
Fixpoint rules_in (past : list wop) (j : nat) : list rule :=
  match past with
  | [] => []
  | WNewEngine :: past' | WNewSet :: past' => if Nat.eqb j (sets past') then [] else rules_in past' j
  | WAddSecRule i l :: past' => rules_in past' j ++ (if points_to past' i j then l else [])
  | WAddRules j' l :: past' => rules_in past' j ++ (if Nat.eqb j j' then l else [])
  | WExecute d i :: past' => rules_in past' j ++ (if points_to past' i j then rules_of (dires_of past' d) else [])
  | _ :: past' => rules_in past' j
  end.
Fixpoint defaults_in (past : list wop) (j : nat) : list action :=
  match past with
  | [] => []
  | WNewEngine :: past' | WNewSet :: past' => if Nat.eqb j (sets past') then [] else defaults_in past' j
  | WAddDefaults j' l :: past' => defaults_in past' j ++ (if Nat.eqb j j' then l else [])
  | _ :: past' => defaults_in past' j
  end.
(** The transactions, the first first: engine, rule set, and the sizes then in force. *)
Fixpoint txns_of (past : list wop) : list (nat * nat * (Z * Z * Z)) :=
  match past with
  | [] => []
  | WNewTransaction true i :: past' =>
      txns_of past' ++ match set_of past' i with Some j => [(i, j, sizes_of past' i)] | None => [] end
  | WNewTransactionOf true (Some i) (Some j) :: past' => txns_of past' ++ [(i, j, sizes_of past' i)]
  | _ :: past' => txns_of past'
  end.
End Past.

(** The settings and rules of a program that has performed [past]. *)
Definition settings (read : nat -> bs -> list dire) (past : list wop) (i : nat) (e : engine) : Prop :=
  (e_enabled e, e_detection e) = mode_of read past i /\ e_reqaccess e = req_of read past i /\ e_resaccess e = res_of read past i /\
  (e_reqlimit e, e_reqmem e, e_reslimit e) = sizes_of past i.
Definition contents (read : nat -> bs -> list dire) (past : list wop) (j : nat) (rs : ruleset) : Prop :=
  rs_default rs = defaults_in past j /\
  (forall q, 1 <= q <= 6 -> phase_rules rs q = List.filter (fun r => r_phase r =? q) (rules_in read past j)) /\
  (forall q, ~ 1 <= q <= 6 -> phase_rules rs q = []).
(** The settings and rules in force at each call on transaction [k] in the rest [os] of a program that has
    performed [past]. *)
Inductive meets (read : nat -> bs -> list dire) (k : nat) : list wop -> list wop -> list (engine * ruleset * op) -> Prop :=
| me_nil : forall past, meets read k past [] []
| me_call : forall past o os i j sz e rs l, nth_error (txns_of past) k = Some (i, j, sz) -> settings read past i e -> contents read past j rs ->
    meets read k (WCall k o :: past) os l -> meets read k past (WCall k o :: os) ((e, rs, o) :: l)
| me_other : forall past o os l, (forall o', o <> WCall k o') -> meets read k (o :: past) os l -> meets read k past (o :: os) l.
(** [read] is what the texts of a program add, and whether they were read is what was answered. *)
Definition texts_read (O : oracles) (read : nat -> bs -> list dire) (os : list wop) (bl : list wobs) : Prop :=
  Forall2 (fun o b => match o with WAddText _ n text => exists ok, b = WRead ok /\ text_adds O n text ok (read n text) | _ => True end) os bl.
(** A transaction being made on engine [i]. *)
Definition makes_on (i : nat) (o : wop) : Prop := o = WNewTransaction true i \/ exists j, o = WNewTransactionOf true (Some i) (Some j).
