(** Model of a program that uses the library as a whole: several engines, rule sets and
    directive sets, and several transactions under way while engines and rules are being
    changed.  Objects are reached through pointers; a pointer is the number of the object
    in the list of its kind, in the order of creation.  A transaction keeps the pointers
    to its engine and its rule set (modsecurity/transaction.go:14-16, 73-75), so a change
    made later through either is seen by it; the limits of its buffers were copied when
    it was made (transaction.go:65-72).
    Simplifications: every operation is one step, so a call is not interleaved with
    changes made while it runs (the code has no locks); engines do not share their
    [Limits] (Shared.v lets them); rules are values, since nothing in the repository changes a rule once its
    text has been read; [TmpPath] is represented by the outcome of makeBufferDir. *)
From Verif Require Import Base GoStrings Buffer Types Transaction Variables Rules Engine Scanner Loader.

(** modsecurity/engine.go:3-9; the rule set behind [RuleSet] is object [he_set], and
    [e_ruleset] of [he_conf] is not used. *)
Record heng := HEng { he_conf : engine; he_set : option nat }.
(** modsecurity/transaction.go:14-16 and the rest of the transaction. *)
Record htxn := HTxn { ht_eng : nat; ht_set : nat; ht_txn : txn }.
Record world := World {
  w_engs : list heng;
  w_sets : list ruleset;
  w_dires : list (list dire);
  w_txns : list htxn
}.
Definition no_world : world := World [] [] [] [].

(** Storing through a pointer. *)
Fixpoint put {A} (n : nat) (x : A) (l : list A) : list A :=
  match l, n with
  | [], _ => []
  | _ :: l', O => x :: l'
  | y :: l', S n' => y :: put n' x l'
  end.
(** Reading through a pointer; a pointer to nothing is nil and panics. *)
Definition deref {A} (n : nat) (l : list A) : out A :=
  match nth_error l n with Some x => Ret x | None => Panic end.

Definition put_eng (i : nat) (x : heng) (w : world) : world := World (put i x (w_engs w)) (w_sets w) (w_dires w) (w_txns w).
Definition put_set (j : nat) (x : ruleset) (w : world) : world := World (w_engs w) (put j x (w_sets w)) (w_dires w) (w_txns w).
Definition put_dires (d : nat) (x : list dire) (w : world) : world := World (w_engs w) (w_sets w) (put d x (w_dires w)) (w_txns w).
Definition put_txn (k : nat) (x : htxn) (w : world) : world := World (w_engs w) (w_sets w) (w_dires w) (put k x (w_txns w)).

(** What a program does. *)
Inductive wop :=
| WNewEngine                                            (* engine.go:34-40 *)
| WNewSet                                               (* sec_rule.go:116-120 *)
| WPoint (i : nat) (j : option nat)                     (* e.RuleSet = rs; engine.go:6 *)
| WEnable (i : nat) (s : mode)                          (* engine.go:51-63 *)
| WLimits (i : nat) (req res : bool) (reqlimit reqmem reslimit : Z)  (* *e.Limits = ...; engine.go:11-17 *)
| WAddSecRule (i : nat) (rules : list rule)             (* engine.go:65-67 *)
| WAddRules (j : nat) (rules : list rule)               (* sec_rule.go:135-145 *)
| WAddDefaults (j : nat) (as_ : list action)            (* sec_rule.go:131-133 *)
| WNewDires                                             (* seclang/rule_set.go:29-31 *)
| WAddText (d : nat) (n : nat) (text : bs)              (* seclang/rule_set.go:45-73 *)
| WExecute (d i : nat)                                  (* seclang/rule_set.go:75-82 *)
| WNewTransaction (dir : bool) (i : nat)                (* engine.go:68-70 *)
| WNewTransactionOf (dir : bool) (i j : option nat)     (* transaction.go:58-86 *)
| WCall (k : nat) (o : op).                             (* Engine.v, [step] *)

(** What it sees: nothing, the number of a new object, an error instead of one, whether a
    text was read without error, what a call answers. *)
Inductive wobs := WNone | WNew (n : nat) | WRefused | WRead (ok : bool) | WAnswer (b : obs).

(** engine.go:65-67 [AddSecRule]: a nil rule set panics at sec_rule.go:136. *)
Definition w_add_sec_rule (i : nat) (rules : list rule) (w : world) : out world :=
  x <- deref i (w_engs w) ;;
  match he_set x with
  | None => Panic
  | Some j => rs <- deref j (w_sets w) ;; Ret (put_set j (add_rules rules rs) w)
  end.
Definition with_conf (i : nat) (g : engine -> engine) (w : world) : out world :=
  x <- deref i (w_engs w) ;; Ret (put_eng i (HEng (g (he_conf x)) (he_set x)) w).
(** seclang/rule_set.go:75-82 over the [Execute] methods (Loader.v, [execute_dire]). *)
Fixpoint w_execute (ds : list dire) (i : nat) (w : world) : out world :=
  match ds with
  | [] => Ret w
  | IRule r :: ds' => w1 <- w_add_sec_rule i [r] w ;; w_execute ds' i w1
  | d :: ds' => w1 <- with_conf i (execute_dire d) w ;; w_execute ds' i w1
  end.
Definition set_limits (req res : bool) (reqlimit reqmem reslimit : Z) (e : engine) : engine :=
  Engine (e_enabled e) (e_detection e) (e_ruleset e) req res reqlimit reqmem reslimit.
(** transaction.go:58-86 *)
Definition w_new_transaction (dir : bool) (i j : option nat) (w : world) : out (world * wobs) :=
  match i, j with
  | Some i, Some j =>
      x <- deref i (w_engs w) ;; _ <- deref j (w_sets w) ;;
      if dir then
        Ret (World (w_engs w) (w_sets w) (w_dires w) (w_txns w ++ [HTxn i j (new_txn (he_conf x))]),
             WNew (length (w_txns w)))
      else Ret (w, WRefused)
  | _, _ => Ret (w, WRefused)
  end.

Definition wstep (fuel : nat) (O : oracles) (o : wop) (w : world) : out (world * wobs) :=
  let quietly m := w' <- m ;; Ret (w', WNone) in
  match o with
  | WNewEngine =>
      Ret (World (w_engs w ++ [HEng new_engine (Some (length (w_sets w)))]) (w_sets w ++ [new_ruleset]) (w_dires w) (w_txns w),
           WNew (length (w_engs w)))
  | WNewSet => Ret (World (w_engs w) (w_sets w ++ [new_ruleset]) (w_dires w) (w_txns w), WNew (length (w_sets w)))
  | WPoint i j => quietly (x <- deref i (w_engs w) ;; Ret (put_eng i (HEng (he_conf x) j) w))
  | WEnable i s => quietly (with_conf i (enable s) w)
  | WLimits i a b l m r => quietly (with_conf i (set_limits a b l m r) w)
  | WAddSecRule i rules => quietly (w_add_sec_rule i rules w)
  | WAddRules j rules => quietly (rs <- deref j (w_sets w) ;; Ret (put_set j (add_rules rules rs) w))
  | WAddDefaults j as_ => quietly (rs <- deref j (w_sets w) ;; Ret (put_set j (add_default_actions as_ rs) w))
  | WNewDires => Ret (World (w_engs w) (w_sets w) (w_dires w ++ [[]]) (w_txns w), WNew (length (w_dires w)))
  | WAddText d n text =>
      ds <- deref d (w_dires w) ;;
      '(ds', ok) <- add_seclang fuel O n text ds ;;
      Ret (put_dires d ds' w, WRead ok)
  | WExecute d i => quietly (ds <- deref d (w_dires w) ;; w_execute ds i w)
  | WNewTransaction dir i => x <- deref i (w_engs w) ;; w_new_transaction dir (Some i) (he_set x) w
  | WNewTransactionOf dir i j => w_new_transaction dir i j w
  | WCall k o =>
      h <- deref k (w_txns w) ;;
      x <- deref (ht_eng h) (w_engs w) ;;
      rs <- deref (ht_set h) (w_sets w) ;;
      '(t', b) <- step fuel O (he_conf x) rs o (ht_txn h) ;;
      Ret (put_txn k (HTxn (ht_eng h) (ht_set h) t') w, WAnswer b)
  end.
Fixpoint wrun (fuel : nat) (O : oracles) (os : list wop) (w : world) : out (world * list wobs) :=
  match os with
  | [] => Ret (w, [])
  | o :: os' =>
      '(w1, b) <- wstep fuel O o w ;;
      '(w2, bl) <- wrun fuel O os' w1 ;;
      Ret (w2, b :: bl)
  end.
