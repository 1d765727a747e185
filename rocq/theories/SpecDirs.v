(** Specification vocabulary for the buffer directory. *)
From Verif Require Import Base Dirs.

(** Every entry lies in a directory. *)
Definition tree (f : fsys) : Prop := forall n d, f (n :: d) <> None -> exists w x, f d = Some (NDir w x).

(** All directories above [p] can be searched. *)
Definition passable (f : fsys) (p : path) : Prop :=
  forall r c a, p = r ++ c :: a -> exists w, f a = Some (NDir w true).
(** There is something at [p]. *)
Definition stands (f : fsys) (p : path) : Prop := passable f p /\ f p <> None.
(** Entries can be made in the directory [p]. *)
Definition room (f : fsys) (p : path) : Prop := passable f p /\ f p = Some (NDir true true).

(** [p], below [base], can be brought into being: the part of it that is missing starts in
    a directory with room. *)
Definition can_be_made (f : fsys) (base p : path) : Prop :=
  exists r c k, p = r ++ c :: k ++ base /\ room f (k ++ base) /\ f (c :: k ++ base) = None.

(** [q] is [p] or a directory above it. *)
Definition on_the_way (q p : path) : Prop := exists r, p = r ++ q.

(** What a path text means, without looking at how the code takes it apart.  Its names, in order:
    between them any number of slashes, at least one. *)
Inductive spells : bs -> list bs -> Prop :=
| sp_end : forall k, spells (repeat "/"%char k) []
| sp_last : forall k n, n <> [] -> ~ In "/"%char n -> spells (repeat "/"%char k ++ n) [n]
| sp_name : forall k n rest ns, n <> [] -> ~ In "/"%char n -> spells ("/"%char :: rest) ns ->
    spells (repeat "/"%char k ++ n ++ "/"%char :: rest) (n :: ns).
(** It starts at the root if it begins with a slash, and in the current directory otherwise. *)
Inductive starts (cwd : path) : bs -> path -> Prop :=
| st_root : forall rest, starts cwd ("/"%char :: rest) []
| st_cwd : forall dir, (forall rest, dir <> "/"%char :: rest) -> starts cwd dir cwd.
Definition means (cwd : path) (dir : bs) (base p : path) : Prop :=
  starts cwd dir base /\ exists ns, spells dir ns /\ p = rev ns ++ base.
