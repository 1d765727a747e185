(** Model of modsecurity/buffer.go: the request/response body buffer.

    The operating system part is the temporary file, represented by its content
    and the file offset.  Every operation that touches the file system takes a
    [fault] saying which step fails.  Simplifications: sizes are unbounded
    integers (Go: int64, and a body of 2^63 bytes cannot exist in memory);
    running out of memory and a failing [Seek]/[Read] of the temporary file are
    not modelled; [dir] only matters for [os] calls and is not kept. *)
From Verif Require Import Base.

(** The temporary file: content and current offset ([os.File]). *)
Record tfile := TFile { f_data : bs; f_off : nat }.

(** modsecurity/buffer.go:24-33; [memReader] is recreated by every [initRead]
    (line 86) and therefore carries no state between calls. *)
Record buffer := Buffer {
  b_len : Z;                 (* length *)
  b_memlimit : Z;
  b_filelimit : Z;
  b_mem : bs;                (* memBuf *)
  b_file : option tfile;     (* fileBuf, nil = None *)
  b_readed : bool            (* never assigned in the source *)
}.

(** modsecurity/buffer.go:35-37, and errors coming from the operating system. *)
Inductive berr := ErrOutOfFileLimit | ErrOutOfMemLimit | ErrBufferReaded | ErrOS.

Inductive wfault :=
| NoFault
| TempFileFails                (* ioutil.TempFile returns nil, err *)
| FirstWriteFails (n : nat)    (* writing memBuf to the file stops after n bytes *)
| WriteFails (n : nat).        (* writing p to the file stops after n bytes *)

(** modsecurity/buffer.go:16-21 (the directory check is in Engine.v). *)
Definition new_buffer (memlimit filelimit : Z) : buffer :=
  Buffer 0 memlimit filelimit [] None false.

Definition set_len (b : buffer) (n : Z) : buffer :=
  Buffer n (b_memlimit b) (b_filelimit b) (b_mem b) (b_file b) (b_readed b).
Definition set_mem (b : buffer) (m : bs) : buffer :=
  Buffer (b_len b) (b_memlimit b) (b_filelimit b) m (b_file b) (b_readed b).
Definition set_file (b : buffer) (f : option tfile) : buffer :=
  Buffer (b_len b) (b_memlimit b) (b_filelimit b) (b_mem b) f (b_readed b).

(** [os.File.Write] at the current offset (no O_APPEND): overwrite, extend, and
    fill a gap behind the end with zero bytes. *)
Definition file_write (f : tfile) (p : bs) : tfile :=
  let d := f_data f in
  let o := f_off f in
  match p with
  | [] => f
  | _ => TFile (firstn o d ++ repeat NUL (o - length d) ++ p ++ skipn (o + length p) d)
               (o + length p)
  end.

(** Length of a byte string as a Go integer. *)
Definition zlen (p : bs) : Z := Z.of_nat (length p).

(** The last file write of [Write] (lines 56/60) and the length update (line 62):
    [n] of the bytes of [p] arrive. *)
Definition finish_file_write (b : buffer) (f : tfile) (p : bs) (ft : wfault)
  : buffer * Z * option berr :=
  match ft with
  | WriteFails n =>
      let q := firstn n p in
      (set_len (set_file b (Some (file_write f q))) (b_len b + zlen q), zlen q, Some ErrOS)
  | _ =>
      (set_len (set_file b (Some (file_write f p))) (b_len b + zlen p), zlen p, None)
  end.

(** modsecurity/buffer.go:39-64 [Write].  [p[:memLimit-length]] (line 47) panics
    when the bound is negative; it is never larger than [len(p)] in that case. *)
Definition buf_write (ft : wfault) (p : bs) (b : buffer) : out (buffer * Z * option berr) :=
  if b_readed b then Ret (b, 0, Some ErrBufferReaded)
  else if b_filelimit b <? b_len b + zlen p then Ret (b, 0, Some ErrOutOfFileLimit)
  else
    match b_file b with
    | None =>
        if b_memlimit b <? b_len b + zlen p then
          let k := b_memlimit b - b_len b in
          if k <? 0 then Panic
          else
            let b1 := set_mem b (b_mem b ++ firstn (Z.to_nat k) p) in
            match ft with
            | TempFileFails => Ret (b1, 0, Some ErrOS)
            | FirstWriteFails n =>
                Ret (set_file b1 (Some (file_write (TFile [] 0) (firstn n (b_mem b1)))),
                     0, Some ErrOS)
            | _ => Ret (finish_file_write b1 (file_write (TFile [] 0) (b_mem b1)) p ft)
            end
        else
          Ret (set_len (set_mem b (b_mem b ++ p)) (b_len b + zlen p), zlen p, None)
    | Some f => Ret (finish_file_write b f p ft)
    end.

(** modsecurity/buffer.go:84-90 [initRead]; [Seek] on a nil file does nothing. *)
Definition init_read (b : buffer) : buffer :=
  if b_readed b then b
  else match b_file b with
       | Some f => set_file b (Some (TFile (f_data f) 0))
       | None => b
       end.

(** modsecurity/buffer.go:65-72 [String] and 73-80 [Bytes] (same content). *)
Definition buf_string (b : buffer) : buffer * bs * option berr :=
  let b := init_read b in
  (b, b_mem b, match b_file b with Some _ => Some ErrOutOfMemLimit | None => None end).

(** modsecurity/buffer.go:81-83 [Len] *)
Definition buf_len (b : buffer) : Z := b_len b.

(** modsecurity/buffer.go:91-97 [Read] into a slice of length [n]: new buffer,
    bytes delivered, EOF flag.  The memory reader was just created at position 0. *)
Definition buf_read (n : nat) (b : buffer) : buffer * bs * bool :=
  let b := init_read b in
  match b_file b with
  | None =>
      match b_mem b with
      | [] => (b, [], true)
      | m => (b, firstn n m, false)
      end
  | Some f =>
      let r := firstn n (skipn (f_off f) (f_data f)) in
      (set_file b (Some (TFile (f_data f) (f_off f + length r))), r,
       negb (Nat.eqb n 0) && Nat.eqb (length r) 0)
  end.

(** modsecurity/buffer.go:98-104 [WriteTo] a writer that accepts everything. *)
Definition buf_write_to (b : buffer) : buffer * bs :=
  let b := init_read b in
  match b_file b with
  | None => (b, b_mem b)
  | Some f =>
      let r := skipn (f_off f) (f_data f) in
      (set_file b (Some (TFile (f_data f) (Nat.max (f_off f) (length (f_data f))))), r)
  end.

(** modsecurity/buffer.go:105-111 [Seek]: [None] when the position is negative
    or [whence] is not 0, 1 or 2 (of a file, some systems know further ones, which
    are left out).  The position of the in-memory reader is lost
    (see [memReader] above). *)
Definition buf_seek (off whence : Z) (b : buffer) : buffer * option Z :=
  let b := init_read b in
  let size := match b_file b with Some f => zlen (f_data f) | None => zlen (b_mem b) end in
  let base := if whence =? 0 then Some 0
              else if whence =? 1 then Some 0   (* just rewound by initRead *)
              else if whence =? 2 then Some size
              else None in
  match base with
  | None => (b, None)
  | Some base =>
      let pos := base + off in
      if pos <? 0 then (b, None)
      else match b_file b with
           | Some f => (set_file b (Some (TFile (f_data f) (Z.to_nat pos))), Some pos)
           | None => (b, Some pos)
           end
  end.

(** modsecurity/buffer.go:113-124 [Close]: [b.fileBuf.Name()] dereferences the
    file, so a buffer that never spilled panics.  [close_fails] and
    [remove_fails] say which of the two system calls fails (line 115, 116); the
    file is removed whether or not it could be closed.  Result: the error, and
    whether the temporary file is gone.  After a successful close every further
    use of the file fails: Closed.v. *)
Inductive cerr := CloseError | RemoveError.
Definition buf_close (close_fails remove_fails : bool) (b : buffer) : out (option cerr * bool) :=
  match b_file b with
  | None => Panic
  | Some _ =>
      let err := if close_fails then Some CloseError else None in
      let err2 := if remove_fails then Some RemoveError else None in
      Ret (match err, err2 with
           | Some e, _ => Some e
           | None, Some e => Some e
           | None, None => None
           end, negb remove_fails)
  end.

(** Operations on a buffer, for statements about histories. *)
Inductive bop :=
| BWrite (p : bs) (ft : wfault)
| BString
| BRead (n : nat)
| BWriteTo
| BSeek (off whence : Z).

(** What the caller observes of one operation. *)
Inductive bobs :=
| OWrite (n : Z) (e : option berr)
| OString (s : bs) (e : option berr)
| ORead (s : bs) (eof : bool)
| OWriteTo (s : bs)
| OSeek (p : option Z).

Definition bstep (o : bop) (b : buffer) : out (buffer * bobs) :=
  match o with
  | BWrite p ft => '(b', n, e) <- buf_write ft p b ;; Ret (b', OWrite n e)
  | BString => let '(b', s, e) := buf_string b in Ret (b', OString s e)
  | BRead n => let '(b', s, eof) := buf_read n b in Ret (b', ORead s eof)
  | BWriteTo => let '(b', s) := buf_write_to b in Ret (b', OWriteTo s)
  | BSeek off wh => let '(b', p) := buf_seek off wh b in Ret (b', OSeek p)
  end.

Fixpoint bruns (os : list bop) (b : buffer) : out (buffer * list bobs) :=
  match os with
  | [] => Ret (b, [])
  | o :: os' =>
      '(b1, ob) <- bstep o b ;;
      '(b2, obs) <- bruns os' b1 ;;
      Ret (b2, ob :: obs)
  end.
