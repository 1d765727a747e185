(** modsecurity/transaction.go:228-294 again, this time with the log kept as Go
    keeps it: a slice, that is a pointer to an array which several slices may
    share.  [Result] copies the [Intervention] struct and therefore only the slice
    header (transaction.go:289-293).  Types.v and Transaction.v treat a log as a
    list; this file is the finer picture, PropAlias.v relates the two.

    Simplification: no slice here is a part of another one that starts behind its
    first element, so a header is an array, a length and a capacity. *)
From Verif Require Import Base Types.

(** A slice header.  The nil slice has capacity 0. *)
Record slice := Slice { s_arr : nat; s_len : nat; s_cap : nat }.
Definition nil_slice : slice := Slice 0 0 0.

(** The arrays that exist, each as long as its capacity. *)
Definition heap := list (list bs).
Definition set_at {A} (n : nat) (x : A) (l : list A) : list A := firstn n l ++ x :: skipn (S n) l.
Definition array (h : heap) (s : slice) : list bs := nth (s_arr s) h [].
Definition elems (h : heap) (s : slice) : list bs := firstn (s_len s) (array h s).

(** The builtin [append] with one new element (transaction.go:270): in place if there is
    room, otherwise into a new array whose capacity the runtime chooses;
    [grow c] is the choice for an array of capacity [c]. *)
Definition append (grow : nat -> nat) (h : heap) (s : slice) (x : bs) : heap * slice :=
  if (s_len s <? s_cap s)%nat then
    (set_at (s_arr s) (set_at (s_len s) x (array h s)) h, Slice (s_arr s) (S (s_len s)) (s_cap s))
  else
    let c := Nat.max (S (s_len s)) (grow (s_cap s)) in
    (h ++ [elems h s ++ x :: repeat [] (c - S (s_len s))], Slice (length h) (S (s_len s)) c).

(** transaction.go:273-279 [Intervention] *)
Record ivref := IvRef {
  v_status : Z; v_pause : Z; v_url : option url; v_log : slice; v_disruptive : bool
}.
(** What reading all its fields shows. *)
Definition seen (h : heap) (v : ivref) : intervention :=
  Intervention (v_status v) (v_pause v) (v_url v) (elems h (v_log v)) (v_disruptive v).

(** The arrays, the transaction's flag and its intervention (transaction.go:17, :31), and the results handed
    out so far, first one first. *)
Record world := World {
  w_heap : heap; w_abort : bool; w_own : option ivref; w_given : list ivref
}.
Definition fresh_world : world := World [] false None [].

(** transaction.go:281-287 [Reset]; 228-234 [Intervention] *)
Definition v_reset : ivref := IvRef 200 0 None nil_slice false.
Definition own (w : world) : ivref := match w_own w with Some v => v | None => v_reset end.

(** What can happen to an intervention: calls of the transaction's methods, and
    what the holder of the [k]-th result does with its log. *)
Inductive event :=
| EvTouch                              (* Intervention, transaction.go:228-234 *)
| EvLog (line : bs)                    (* Logf, :265-271; the line with its prefix *)
| EvMark (status : Z)                  (* actions/deny.go:24-37: Status, Disruptive *)
| EvAbort (code : Z)                   (* AbortWithStatus, :250-255 *)
| EvAbortError (code : Z) (line : bs)  (* AbortWithError, :242-248 *)
| EvReset                              (* ResetIntervention, :235-240 *)
| EvResult                             (* Result, :257-263 *)
| EvAppend (k : nat) (line : bs)       (* r.Log = append(r.Log, line) *)
| EvSet (k j : nat) (line : bs)        (* r.Log[j] = line *)
| EvDrop (k : nat).                    (* r.Log = nil *)

Definition v_with_log (v : ivref) (l : slice) : ivref := IvRef (v_status v) (v_pause v) (v_url v) l (v_disruptive v).
Definition v_mark (v : ivref) (st : Z) : ivref := IvRef st (v_pause v) (v_url v) (v_log v) true.
Definition w_log (grow : nat -> nat) (line : bs) (w : world) : world :=
  let '(h, l) := append grow (w_heap w) (v_log (own w)) line in
  World h (w_abort w) (Some (v_with_log (own w) l)) (w_given w).
Definition w_mark (st : Z) (w : world) : world := World (w_heap w) (w_abort w) (Some (v_mark (own w) st)) (w_given w).
Definition w_aborted (w : world) : world := World (w_heap w) true (w_own w) (w_given w).

Definition run (grow : nat -> nat) (ev : event) (w : world) : out world :=
  match ev with
  | EvTouch => Ret (World (w_heap w) (w_abort w) (Some (own w)) (w_given w))
  | EvLog line => Ret (w_log grow line w)
  | EvMark st => Ret (w_mark st w)
  | EvAbort c => Ret (w_mark c (w_aborted w))
  | EvAbortError c line => Ret (w_log grow line (w_mark c (w_aborted w)))
  | EvReset => Ret (World (w_heap w) (w_abort w) (Some v_reset) (w_given w))
  | EvResult =>
      Ret (World (w_heap w) (w_abort w) (Some (if w_abort w then own w else v_reset)) (w_given w ++ [own w]))
  | EvAppend k line =>
      match nth_error (w_given w) k with
      | Some v => let '(h, l) := append grow (w_heap w) (v_log v) line in
                  Ret (World h (w_abort w) (w_own w) (set_at k (v_with_log v l) (w_given w)))
      | None => Panic
      end
  | EvSet k j line =>
      match nth_error (w_given w) k with
      | Some v => if (j <? s_len (v_log v))%nat
                  then Ret (World (set_at (s_arr (v_log v)) (set_at j line (array (w_heap w) (v_log v))) (w_heap w))
                             (w_abort w) (w_own w) (w_given w))
                  else Panic
      | None => Panic
      end
  | EvDrop k =>
      match nth_error (w_given w) k with
      | Some v => Ret (World (w_heap w) (w_abort w) (w_own w) (set_at k (v_with_log v nil_slice) (w_given w)))
      | None => Panic
      end
  end.

Fixpoint run_all (grow : nat -> nat) (es : list event) (w : world) : out world :=
  match es with
  | [] => Ret w
  | ev :: es' => w1 <- run grow ev w ;; run_all grow es' w1
  end.
