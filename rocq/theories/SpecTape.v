(** Specification vocabulary: what every operation of any history on a body buffer answers.
    A spilled body is given byte by byte: a byte is what was stored there last. *)
From Verif Require Import Base Buffer.

(** Pieces stored so far, the oldest first: where each begins, and its bytes. *)
Definition pieces : Type := list (nat * bs).
Definition covers (x : nat * bs) (i : nat) : Prop := (fst x <= i < fst x + length (snd x))%nat.
(** How far the pieces reach; an empty piece reaches nowhere. *)
Inductive reaches (st : pieces) : nat -> Prop :=
| rc_nowhere : (forall x, In x st -> snd x = []) -> reaches st 0
| rc_piece : forall x, In x st -> snd x <> [] ->
    (forall y, In y st -> snd y <> [] -> (fst y + length (snd y) <= fst x + length (snd x))%nat) ->
    reaches st (fst x + length (snd x)).
(** The byte at [i]: of the last piece that covers it, or zero in a gap. *)
Inductive byte_at (st : pieces) (i : nat) : ascii -> Prop :=
| ba_piece : forall st1 x st2 c, st = st1 ++ x :: st2 -> covers x i -> nth_error (snd x) (i - fst x) = Some c ->
    (forall y, In y st2 -> ~ covers y i) -> byte_at st i c
| ba_gap : forall n, (forall x, In x st -> ~ covers x i) -> reaches st n -> (i < n)%nat -> byte_at st i NUL.
(** The text they make. *)
Definition reads_as_text (st : pieces) (t : bs) : Prop :=
  reaches st (length t) /\ forall i c, nth_error t i = Some c <-> byte_at st i c.

(** A body in memory, or in a file with the position the next write goes to. *)
Inductive place := Memory | File (st : pieces) (q : nat).
Definition at_place (q : nat) (w : place) : place := match w with Memory => Memory | File st _ => File st q end.
Inductive whole (mem : bs) : place -> bs -> Prop :=
| wh_memory : whole mem Memory mem
| wh_file : forall st q t, reads_as_text st t -> whole mem (File st q) t.
(** What arrives of a write to the file, and what is reported. *)
Inductive arrives (p : bs) : wfault -> bs -> option berr -> Prop :=
| ar_all : arrives p NoFault p None
| ar_part : forall k, arrives p (WriteFails k) (firstn k p) (Some ErrOS).
Inductive origin (t : bs) : Z -> Z -> Prop :=
| or_start : origin t 0 0
| or_current : origin t 1 0
| or_end : origin t 2 (Z.of_nat (length t)).

(** [tells m l mem n w os obs]: with memory limit [m] and size limit [l], the text [mem] in
    memory, [n] bytes accepted and the body at [w], the operations [os] answer [obs]. *)
Inductive tells (m l : Z) : bs -> Z -> place -> list bop -> list bobs -> Prop :=
| tl_nil : forall mem n w, tells m l mem n w [] []
| tl_over : forall mem n w p ft os obs, l < n + Z.of_nat (length p) -> tells m l mem n w os obs ->
    tells m l mem n w (BWrite p ft :: os) (OWrite 0 (Some ErrOutOfFileLimit) :: obs)
| tl_memory : forall mem n p ft os obs, n + Z.of_nat (length p) <= l -> n + Z.of_nat (length p) <= m ->
    tells m l (mem ++ p) (n + Z.of_nat (length p)) Memory os obs ->
    tells m l mem n Memory (BWrite p ft :: os) (OWrite (Z.of_nat (length p)) None :: obs)
| tl_no_file : forall mem n p os obs, n + Z.of_nat (length p) <= l -> m < n + Z.of_nat (length p) ->
    tells m l (mem ++ firstn (Z.to_nat (m - n)) p) n Memory os obs ->
    tells m l mem n Memory (BWrite p TempFileFails :: os) (OWrite 0 (Some ErrOS) :: obs)
| tl_no_copy : forall mem mem' n p k os obs, n + Z.of_nat (length p) <= l -> m < n + Z.of_nat (length p) ->
    mem' = mem ++ firstn (Z.to_nat (m - n)) p ->
    tells m l mem' n (File [(0%nat, firstn k mem')] (length (firstn k mem'))) os obs ->
    tells m l mem n Memory (BWrite p (FirstWriteFails k) :: os) (OWrite 0 (Some ErrOS) :: obs)
| tl_spill : forall mem mem' n p ft d e os obs, n + Z.of_nat (length p) <= l -> m < n + Z.of_nat (length p) ->
    mem' = mem ++ firstn (Z.to_nat (m - n)) p -> arrives p ft d e ->
    tells m l mem' (n + Z.of_nat (length d)) (File [(0%nat, mem'); (length mem', d)] (length mem' + length d)) os obs ->
    tells m l mem n Memory (BWrite p ft :: os) (OWrite (Z.of_nat (length d)) e :: obs)
| tl_file : forall mem n st q p ft d e os obs, n + Z.of_nat (length p) <= l ->
    arrives p ft d e \/ ((ft = TempFileFails \/ exists k, ft = FirstWriteFails k) /\ d = p /\ e = None) ->
    tells m l mem (n + Z.of_nat (length d)) (File (st ++ [(q, d)]) (q + length d)) os obs ->
    tells m l mem n (File st q) (BWrite p ft :: os) (OWrite (Z.of_nat (length d)) e :: obs)
| tl_string : forall mem n w os obs, tells m l mem n (at_place 0 w) os obs ->
    tells m l mem n w (BString :: os) (OString mem (match w with Memory => None | File _ _ => Some ErrOutOfMemLimit end) :: obs)
| tl_read : forall mem n w t k eof os obs, whole mem w t -> (eof = true <-> t = [] /\ (k <> 0%nat \/ w = Memory)) ->
    tells m l mem n (at_place (length (firstn k t)) w) os obs ->
    tells m l mem n w (BRead k :: os) (ORead (firstn k t) eof :: obs)
| tl_write_to : forall mem n w t os obs, whole mem w t -> tells m l mem n (at_place (length t) w) os obs ->
    tells m l mem n w (BWriteTo :: os) (OWriteTo t :: obs)
| tl_seek : forall mem n w t off wh z os obs, whole mem w t -> origin t wh z -> 0 <= z + off ->
    tells m l mem n (at_place (Z.to_nat (z + off)) w) os obs ->
    tells m l mem n w (BSeek off wh :: os) (OSeek (Some (z + off)) :: obs)
| tl_no_seek : forall mem n w t off wh os obs, whole mem w t -> (forall z, origin t wh z -> z + off < 0) ->
    tells m l mem n (at_place 0 w) os obs ->
    tells m l mem n w (BSeek off wh :: os) (OSeek None :: obs).

(** Histories in which no write follows a read, a seek or a call of String or Bytes unless
    the whole body was read in between. *)
Fixpoint reads_to_the_end (pending : bool) (os : list bop) : Prop :=
  match os with
  | [] => True
  | BWrite _ _ :: os' => pending = false /\ reads_to_the_end false os'
  | BWriteTo :: os' => reads_to_the_end false os'
  | _ :: os' => reads_to_the_end true os'
  end.
