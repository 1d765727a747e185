(** Model of programs whose engines share their [Limits] (modsecurity/engine.go:3-17).  An
    engine holds a pointer to its limits, so after [e2.Limits = e1.Limits] the two engines
    have one set of limits, and a change made through either, or by a directive executed on
    either, is a change for both.  This is World.v with the limits as objects of their own:
    an operation of World.v is run with the limits each engine points to filled in, and
    what it wrote is stored through the pointer of the engine it was made on.
    Simplifications: those of World.v except for the sharing; a [Limits] pointer is never
    nil (with nil the first use of a limit panics). *)
From Verif Require Import Base GoStrings Buffer Types Transaction Variables Rules Engine Scanner Loader World.

(** modsecurity/engine.go:11-17 *)
Record limits := Limits { l_req : bool; l_res : bool; l_reqlimit : Z; l_reqmem : Z; l_reslimit : Z }.
(** The limits are promoted fields of the engine (engine.go:7). *)
Definition limits_in (e : engine) : limits :=
  Limits (e_reqaccess e) (e_resaccess e) (e_reqlimit e) (e_reqmem e) (e_reslimit e).
Definition with_limits (l : limits) (e : engine) : engine :=
  set_limits (l_req l) (l_res l) (l_reqlimit l) (l_reqmem l) (l_reslimit l) e.

(** [s_of] holds the [Limits] pointer of each engine (engine.go:7); the limits in
    [he_conf] of the engines of [s_world] are not used. *)
Record sworld := SWorld { s_world : world; s_lims : list limits; s_of : list nat }.
Definition no_sworld : sworld := SWorld no_world [] [].

(** Reading the limits of every engine through its pointer (engine.go:7). *)
Fixpoint filled (lims : list limits) (of : list nat) (engs : list heng) : list heng :=
  match engs, of with
  | x :: engs', m :: of' =>
      match nth_error lims m with Some l => HEng (with_limits l (he_conf x)) (he_set x) | None => x end :: filled lims of' engs'
  | _, _ => engs
  end.
Definition seen (s : sworld) : world :=
  let w := s_world s in World (filled (s_lims s) (s_of s) (w_engs w)) (w_sets w) (w_dires w) (w_txns w).

(** What a program does: the operations of World.v, [NewDefaultLimits] or a literal
    (engine.go:28-34), [e.Limits = l] (engine.go:7) and [*l = ...] (engine.go:11-17). *)
Inductive sop :=
| SProgram (o : wop)
| SNewLimits (l : limits)
| SPoint (i m : nat)
| SSet (m : nat) (l : limits).

(** Storing what an operation wrote: a new engine gets limits of its own (engine.go:36-42),
    [*e.Limits = ...] and the [Execute] methods of SecRequestBodyAccess and
    SecResponseBodyAccess (seclang/rules.go:36-39, 61-64) write through the pointer of the engine. *)
Definition stored (o : wop) (w : world) (s : sworld) : sworld :=
  match o with
  | WNewEngine => SWorld w (s_lims s ++ [limits_in new_engine]) (s_of s ++ [length (s_lims s)])
  | WLimits i _ _ _ _ _ | WExecute _ i =>
      match nth_error (w_engs w) i, nth_error (s_of s) i with
      | Some x, Some m => SWorld w (put m (limits_in (he_conf x)) (s_lims s)) (s_of s)
      | _, _ => SWorld w (s_lims s) (s_of s)
      end
  | _ => SWorld w (s_lims s) (s_of s)
  end.

Definition sstep (fuel : nat) (O : oracles) (o : sop) (s : sworld) : out (sworld * wobs) :=
  match o with
  | SProgram o => '(w, b) <- wstep fuel O o (seen s) ;; Ret (stored o w s, b)
  | SNewLimits l => Ret (SWorld (s_world s) (s_lims s ++ [l]) (s_of s), WNew (length (s_lims s)))
  | SPoint i m =>
      _ <- deref i (s_of s) ;; _ <- deref m (s_lims s) ;;
      Ret (SWorld (s_world s) (s_lims s) (put i m (s_of s)), WNone)
  | SSet m l => _ <- deref m (s_lims s) ;; Ret (SWorld (s_world s) (put m l (s_lims s)) (s_of s), WNone)
  end.
Fixpoint srun (fuel : nat) (O : oracles) (os : list sop) (s : sworld) : out (sworld * list wobs) :=
  match os with
  | [] => Ret (s, [])
  | o :: os' =>
      '(s1, b) <- sstep fuel O o s ;;
      '(s2, bl) <- srun fuel O os' s1 ;;
      Ret (s2, b :: bl)
  end.
