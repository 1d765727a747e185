(** Model of the buffer directory: [makeBufferDir] (modsecurity/buffer.go:126-138) on a small
    file system, and what a transaction can then do in that directory.

    Simplified: a directory's permissions are two flags (entries can be made in it, its entries can be
    reached); no symbolic links; "." and ".." are ordinary names; directories made by MkdirAll
    (mode 0700) can be used by their maker, i.e. an umask that takes the owner's own rights away is
    left out; nobody else changes the file system meanwhile. *)
From Verif Require Import Base GoStrings Buffer Types Engine.

Inductive node := NFile | NDir (writable searchable : bool).
(** A path is the list of its names, the last one first; [] is the root. *)
Definition path := list bs.
Definition fsys := path -> option node.

Definition path_eqb (p q : path) : bool := if list_eq_dec (list_eq_dec ascii_dec) p q then true else false.
Definition set_node (f : fsys) (p : path) (n : node) : fsys := fun q => if path_eqb p q then Some n else f q.

(** Looking a path up as the system calls do: found, ENOENT, or another error (ENOTDIR
    below a file, EACCES below a directory that cannot be searched). *)
Inductive looked := Found (n : node) | NotExist | OtherErr.
Fixpoint look (f : fsys) (p : path) : looked :=
  match p with
  | [] => match f [] with Some n => Found n | None => NotExist end
  | n :: d =>
      match look f d with
      | Found (NDir _ x) => if x then match f p with Some nd => Found nd | None => NotExist end else OtherErr
      | Found NFile => OtherErr
      | NotExist => NotExist
      | OtherErr => OtherErr
      end
  end.

(** [os.Mkdir]: the new file system and whether it worked. *)
Definition mkdir (f : fsys) (p : path) : fsys * bool :=
  match p with
  | [] => (f, false)
  | n :: d =>
      match look f d with
      | Found (NDir w x) =>
          if w && x then match f p with None => (set_node f p (NDir true true), true) | Some _ => (f, false) end
          else (f, false)
      | _ => (f, false)
      end
  end.
(** [os.MkdirAll] (Go's os/path.go) of the names [comps] below [base], the root or the
    current directory. *)
Fixpoint mkdir_all (f : fsys) (base : path) (comps : list bs) : fsys * bool :=
  match comps with
  | [] => (f, match look f base with Found (NDir _ _) => true | _ => false end)
  | n :: d =>
      match look f (comps ++ base) with
      | Found (NDir _ _) => (f, true)
      | Found NFile => (f, false)
      | _ =>
          let '(f1, ok) := match d with [] => (f, true) | _ => mkdir_all f base d end in
          if ok then
            let '(f2, ok2) := mkdir f1 (comps ++ base) in
            (f2, ok2 || match look f2 (comps ++ base) with Found (NDir _ _) => true | _ => false end)
          else (f1, false)
      end
  end.

(** The names of a path text and where it starts. *)
Definition names (dir : bs) : list bs :=
  rev (List.filter (fun s => match s with [] => false | _ => true end) (split "/" dir)).
Definition start_of (cwd : path) (dir : bs) : path :=
  match dir with "/"%char :: _ => [] | _ => cwd end.
Definition place (cwd : path) (dir : bs) : path := names dir ++ start_of cwd dir.

(** buffer.go:126-138 [makeBufferDir]; both Stat and Mkdir of the empty text give ENOENT. *)
Definition make_buffer_dir (f : fsys) (cwd : path) (dir : bs) : fsys * bool :=
  match dir with
  | [] => (f, false)
  | _ =>
      match look f (place cwd dir) with
      | Found _ => (f, true)
      | NotExist => mkdir_all f (start_of cwd dir) (names dir)
      | OtherErr => (f, false)
      end
  end.

(** buffer.go:11-22 and transaction.go:58-86 [NewTransaction] with its two newBuffer calls; [dir] is
    Engine.TmpPath. *)
Definition new_transaction_in (f : fsys) (cwd : path) (dir : bs) (e : option engine) (rs : option ruleset) : fsys * option txn :=
  match e, rs with
  | Some e, Some _ =>
      let '(f1, ok1) := make_buffer_dir f cwd dir in
      if ok1 then
        let '(f2, ok2) := make_buffer_dir f1 cwd dir in
        if ok2 then (f2, Some (new_txn e)) else (f2, None)
      else (f1, None)
  | _, _ => (f, None)
  end.

(** [ioutil.TempFile] in the buffer directory (buffer.go:47) works iff a file can be made there;
    what that means for a write. *)
Definition temp_file (f : fsys) (cwd : path) (dir : bs) : bool :=
  match look f (place cwd dir) with Found (NDir w x) => w && x | _ => false end.
Definition spill_fault (f : fsys) (cwd : path) (dir : bs) : wfault :=
  if temp_file f cwd dir then NoFault else TempFileFails.
