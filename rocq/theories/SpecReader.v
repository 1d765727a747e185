(** Specification vocabulary: programs that read a body piece by piece, and requests
    whose bodies are not forms. *)
From Verif Require Import Base GoStrings Buffer Types Engine SpecText SpecVars SpecData.

(** What a reading program does next, given everything handed to it so far (bytes, and
    whether the end was reported): ask for up to [n] more bytes, or stop with an answer. *)
Inductive demand (A : Type) := Ask (n : nat) | Stop (a : A).
Arguments Ask {A}. Arguments Stop {A}.
Definition reading (A : Type) : Type := list (bs * bool) -> demand A.

(** Running it on a body buffer: every demand is one [Read] (modsecurity/buffer.go:91-97). *)
Inductive reads {A} (p : reading A) : list (bs * bool) -> buffer -> A -> Prop :=
| rd_stop : forall h b a, p h = Stop a -> reads p h b a
| rd_ask : forall h b n b1 s eof a, p h = Ask n -> buf_read n b = (b1, s, eof) ->
    reads p (h ++ [(s, eof)]) b1 a -> reads p h b a.

(** It never asks for more than [k] bytes at a time. *)
Definition asks_at_most {A} (k : nat) (p : reading A) : Prop := forall h n, p h = Ask n -> (n <= k)%nat.
(** It never stops before the end is reported to it. *)
Definition needs_the_end {A} (p : reading A) : Prop := forall h a, p h = Stop a -> In true (map snd h).

(** [multipart.NewReader(body, boundary).ReadForm(max)] (variables/request_body_parser.go:40-41)
    is such a program, asking for at most [k] bytes at a time: it answers what the
    program answers, and never returns if the program never stops.  (The reader of Go's
    library puts a buffer of 4096 bytes in front of the body and only ever fills that.) *)
Definition reads_multipart (O : oracles) (k : nat) (p : bs -> Z -> reading mpres) : Prop :=
  (forall bd m, asks_at_most k (p bd m)) /\
  forall b bd m, b_readed b = false ->
    reads (p bd m) [] b (fst (multipart O b bd m)) \/
    ((forall r, ~ reads (p bd m) [] b r) /\ fst (multipart O b bd m) = MpHang).

(** A body given in pieces, and calls that give none. *)
Definition in_pieces (ps : list bs) : list op := map (fun p => OpAppendRequestBody p NoFault) ps.
Definition no_body (os : list op) : Prop := forall p ft, ~ In (OpAppendRequestBody p ft) os.

(** No headers of the calls (nor their absence) announce an url-encoded form. *)
Definition announced (ct : bs) : bs := match ct with [] => B "application/octet-stream" | _ => ct end.
Definition never_a_form (O : oracles) (os : list op) : Prop :=
  forall h ct s, (h = [] \/ In (OpRequestHeader h) os) -> first_value (B "Content-Type") h ct ->
    fst (media_type O (announced ct)) <> B "application/x-www-form-urlencoded" ++ s.
