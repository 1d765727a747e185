(** Model of a body buffer that may be closed, also more than once, and used afterwards
    (modsecurity/buffer.go:113-124; Buffer.v for everything else).  A transaction's bodies can be
    reached and closed by a program (modsecurity/transaction.go:39-52); nothing in the repository does.

    An [os.File] that was closed stays closed, also if the system call reported an error, and every later
    operation on it fails (Go's os/file.go and internal/poll: the descriptor is taken back first).
    Simplified: nobody else makes or removes a file of the same name. *)
From Verif Require Import Base Buffer.

(** The buffer, whether its file has been closed, and whether its file is on disk. *)
Record cbuffer := CBuffer { cb_buf : buffer; cb_shut : bool; cb_disk : bool }.
Definition new_cbuffer (memlimit filelimit : Z) : cbuffer := CBuffer (new_buffer memlimit filelimit) false false.

Inductive cop := CDo (o : bop) | CClose (close_fails remove_fails : bool).
(** Answers: those of Buffer.v; no bytes and an error (Read, WriteTo); the error of Close. *)
Inductive cobs := CAnswer (o : bobs) | CNothing | CClosed (e : option cerr).

(** modsecurity/buffer.go:39-64 [Write] to a closed file: line 44, then line 60, which writes nothing. *)
Definition shut_write (p : bs) (b : buffer) : bobs :=
  if b_readed b then OWrite 0 (Some ErrBufferReaded)
  else if b_filelimit b <? b_len b + zlen p then OWrite 0 (Some ErrOutOfFileLimit)
  else OWrite 0 (Some ErrOS).
(** modsecurity/buffer.go:65-111 with a closed file: line 87 fails and is ignored; String and Bytes
    do not read the file. *)
Definition shut_step (o : bop) (b : buffer) : cobs :=
  match o with
  | BWrite p _ => CAnswer (shut_write p b)
  | BString => CAnswer (OString (b_mem b) (Some ErrOutOfMemLimit))
  | BRead _ => CNothing
  | BWriteTo => CNothing
  | BSeek _ _ => CAnswer (OSeek None)
  end.
Definition has_file (b : buffer) : bool := match b_file b with Some _ => true | None => false end.

Definition cstep (o : cop) (c : cbuffer) : out (cbuffer * cobs) :=
  match o with
  | CDo o =>
      if cb_shut c then Ret (c, shut_step o (cb_buf c))
      else
        '(b, a) <- bstep o (cb_buf c) ;;
        Ret (CBuffer b false (has_file b), CAnswer a)
  | CClose cf rf =>
      if has_file (cb_buf c) then
        let cf := cf || cb_shut c in
        let rf := rf || negb (cb_disk c) in
        Ret (CBuffer (cb_buf c) true (cb_disk c && rf),
             CClosed (if cf then Some CloseError else if rf then Some RemoveError else None))
      else Panic
  end.
Fixpoint cruns (os : list cop) (c : cbuffer) : out (cbuffer * list cobs) :=
  match os with
  | [] => Ret (c, [])
  | o :: os' =>
      '(c1, a) <- cstep o c ;;
      '(c2, l) <- cruns os' c1 ;;
      Ret (c2, a :: l)
  end.
