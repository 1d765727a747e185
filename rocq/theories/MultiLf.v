(** Multipart forms whose lines end with LF alone: [multipart.NewReader(body, boundary).ReadForm(max)]
    (modsecurity/variables/request_body_parser.go:40-41), for bodies well below max.

    As Multi.v a reading of the library, of the mode its reader changes to when LF alone ends the first delimiter line
    ([isBoundaryDelimiterLine]).  From there on delimiters are ended with LF, and the text of a part goes up to LF and the delimiter.
    [None] means that the reader needs more bytes, or that the text is outside this part. *)
From Verif Require Import Base GoStrings Buffer Types Transaction Variables Media Multi.

(** [NextPart] before the first part: the lines up to a delimiter that is ended with LF alone. *)
Fixpoint first_bare (fuel : nat) (bd s : bs) : option bs :=
  match fuel with
  | O => None
  | S n =>
      match read_line s with
      | None => None
      | Some (line, r) =>
          if is_delimiter bd line then None
          else if bare_delimiter bd line then Some r
          else if is_final bd line then None
          else first_bare n bd r
      end
  end.
(** [isFinalBoundary] in this mode. *)
Definition is_final_lf (bd line : bs) : bool :=
  has_prefix (B "--" ++ bd ++ B "--") line &&
  match skip_lwsp (skipn (length (B "--" ++ bd ++ B "--")) line) with [] => true | r => bs_eqb r [LF] end.
(** [NextPart] after a part. *)
Fixpoint next_lf (fuel : nat) (expect : bool) (bd s : bs) : option nres :=
  match fuel with
  | O => None
  | S n =>
      match read_line s with
      | None => None
      | Some (line, r) =>
          if bare_delimiter bd line then Some (NPart r)
          else if is_final_lf bd line then Some NEnd
          else if expect then Some NErr
          else if bs_eqb line [LF] then next_lf n true bd r
          else Some NErr
      end
  end.
(** [scanUntilBoundary] in this mode. *)
Definition value_lf (bd s : bs) : option (bs * bs) :=
  if has_prefix (B "--" ++ bd) s then if after_boundary (skipn (length (B "--" ++ bd)) s) then Some ([], s) else None
  else match index_of ([LF] ++ B "--" ++ bd) s with
       | None => None
       | Some (v, r) => if after_boundary r then Some (v, [LF] ++ B "--" ++ bd ++ r) else None
       end.
(** [ReadForm] from the text of a part on. *)
Fixpoint lf_parts (fuel : nat) (bd s : bs) (m : vals) : option mpres :=
  match fuel with
  | O => None
  | S n =>
      match disposition s with
      | None => None
      | Some (d, r1) =>
          match form_name (fst d), part_decoded (snd d) (value_lf bd r1) with
          | Some nm, Some (v, r2) =>
              let m' := match nm with [] => m | _ => vals_add nm v m end in
              match next_lf (length r2) false bd r2 with
              | None => None
              | Some NEnd => Some (MpOk m')
              | Some NErr => Some MpErr
              | Some (NPart r) => lf_parts n bd r m'
              end
          | _, _ => None
          end
      end
  end.
Definition read_lf_form (bd s : bs) : option mpres :=
  match bd with
  | [] => None
  | _ => match first_bare (length s) bd s with Some r => lf_parts (length s) bd r [] | None => None end
  end.
