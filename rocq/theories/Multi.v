(** Multipart forms: [multipart.NewReader(body, boundary).ReadForm(max)]
    (modsecurity/variables/request_body_parser.go:40-41), for bodies well below max.

    The library is not in /repo; like GoStrings.v this is a reading of it, as of Go 1.11 or later ([NextPart], [isBoundaryDelimiterLine],
    [isFinalBoundary], [ReadMIMEHeader], [scanUntilBoundary], [FormName], [FileName], [ReadForm]).  The functions work on the bytes the reader
    gets to see; [None] means that it needs more of them, or that the text is outside this part: the oracle decides alone. *)
From Verif Require Import Base GoStrings Buffer Types Transaction Variables Media.

Definition NL : bs := [CR; LF].
(** [ReadSlice('\n')]: a line with its end, and the rest. *)
Definition read_line (s : bs) : option (bs * bs) :=
  match cut LF s with
  | (a, Some r) => Some (a ++ [LF], r)
  | (_, None) => None
  end.
(** [skipLWSPChar] *)
Definition skip_lwsp (s : bs) : bs := drop_while (fun c => Ascii.eqb c " " || Ascii.eqb c TAB) s.
(** [isBoundaryDelimiterLine], for lines that end in CR LF. *)
Definition is_delimiter (bd line : bs) : bool :=
  has_prefix (B "--" ++ bd) line && bs_eqb (skip_lwsp (skipn (length (B "--" ++ bd)) line)) NL.
(** The first delimiter ends with LF alone: the reader changes to such lines (not modelled); later on that is no delimiter. *)
Definition bare_delimiter (bd line : bs) : bool :=
  has_prefix (B "--" ++ bd) line && bs_eqb (skip_lwsp (skipn (length (B "--" ++ bd)) line)) [LF].
(** [isFinalBoundary] *)
Definition is_final (bd line : bs) : bool :=
  has_prefix (B "--" ++ bd ++ B "--") line &&
  match skip_lwsp (skipn (length (B "--" ++ bd ++ B "--")) line) with [] => true | r => bs_eqb r NL end.
(** [NextPart] up to the delimiter line: a part begins, the form ends, or an error. *)
Inductive nres := NPart (rest : bs) | NEnd | NErr.
Fixpoint next_part (fuel : nat) (first expect : bool) (bd s : bs) : option nres :=
  match fuel with
  | O => None
  | S n =>
      match read_line s with
      | None => None
      | Some (line, r) =>
          if is_delimiter bd line then Some (NPart r)
          else if first && bare_delimiter bd line then None
          else if is_final bd line then Some NEnd
          else if expect then Some NErr
          else if first then next_part n first false bd r
          else if bs_eqb line NL then next_part n false true bd r
          else Some NErr
      end
  end.
(** [ReadLine]: a line ended with LF or CR LF, without its end, and what follows. *)
Definition strip_cr (s : bs) : bs :=
  match rev s with
  | c :: r => if Ascii.eqb c CR then rev r else s
  | [] => s
  end.
Definition text_line (s : bs) : option (bs * bs) :=
  match cut LF s with
  | (l, Some r) => Some (strip_cr l, r)
  | (_, None) => None
  end.
(** [readContinuedLineSlice]: lines that begin with a blank continue the one before; those of blanks alone are left out. *)
Definition right_off (s : bs) : bs := rev (skip_lwsp (rev s)).
Fixpoint more_lines (fuel : nat) (buf s : bs) : option (bs * bs) :=
  match s with
  | [] => None
  | c :: _ =>
      if Ascii.eqb c " " || Ascii.eqb c TAB then
        match fuel with
        | O => None
        | S n =>
            match text_line s with
            | Some (l, r) =>
                match right_off (skip_lwsp l) with
                | [] => None
                | x => more_lines n (right_off buf ++ " "%char :: x) r
                end
            | None => None
            end
        end
      else Some (buf, s)
  end.
(** [ReadMIMEHeader]: lines of a key and a value, with keys that are tokens and values of printable bytes, up to an
    empty line. *)
Definition header_char (c : ascii) : bool := ((32 <=? code c) && (code c <=? 126)) || (code c =? 9).
Fixpoint header_lines (fuel : nat) (s : bs) : option (list (bs * bs) * bs) :=
  match fuel with
  | O => None
  | S n =>
      match text_line s with
      | None => None
      | Some ([], rest) => Some ([], rest)
      | Some (line0, rest0) =>
          match more_lines (length rest0) line0 rest0 with
          | None => None
          | Some (line, rest) =>
              match cut ":" line with
              | (key, Some v) =>
                  if negb (bs_eqb key []) && forallb token_char key && forallb header_char v then
                    match header_lines n rest with
                    | Some (hs, r) => Some ((lower key, v) :: hs, r)
                    | None => None
                    end
                  else None
              | (_, None) => None
              end
          end
      end
  end.
(** [newPart]: whether the text of the part is to be decoded.  Versions of the library differ on other spellings of
    quoted-printable than the one in lower case, which are left out. *)
Definition encoded (hs : list (bs * bs)) : option bool :=
  let e := trim (param_of (B "content-transfer-encoding") hs) in
  if bs_eqb e (B "quoted-printable") then Some true else if bs_eqb (lower e) (B "quoted-printable") then None else Some false.
(** [quotedprintable.Reader] on a line: = and two digits are a byte.  Other uses of = are left out. *)
Fixpoint qp_text (s : bs) : option bs :=
  match s with
  | [] => Some []
  | c :: r =>
      if Ascii.eqb c "=" then
        match r with
        | a :: b :: s' => if is_hex a && is_hex b then option_map (cons (byte_of (unhex a * 16 + unhex b))) (qp_text s') else None
        | _ => None
        end
      else if header_char c || (128 <=? code c) then option_map (cons c) (qp_text r)
      else None
  end.
(** And on a text: blanks at the end of a line do not count, with = as its last byte its end does not count either. *)
Fixpoint qp_lines (fuel : nat) (s : bs) : option bs :=
  match fuel with
  | O => None
  | S n =>
      match cut LF s with
      | (l, None) => qp_text (right_off l)
      | (l, Some r) =>
          let line := strip_cr l in
          match (match rev line with
                 | c :: x => if Ascii.eqb c "=" then qp_text (rev x) else option_map (fun v => v ++ skipn (length line) l ++ [LF]) (qp_text (right_off line))
                 | [] => Some (skipn (length line) l ++ [LF])
                 end), qp_lines n r with
          | Some v, Some u => Some (v ++ u)
          | _, _ => None
          end
      end
  end.
Definition quoted_printable (s : bs) : option bs := qp_lines (S (length s)) s.
Definition part_decoded (q : bool) (x : option (bs * bs)) : option (bs * bs) :=
  match x with
  | Some (v, r) => if q then option_map (fun v' => (v', r)) (quoted_printable v) else x
  | None => None
  end.
(** The first Content-Disposition, empty if there is none, whether the text is to be decoded, and what follows the header. *)
Definition disposition (s : bs) : option (bs * bool * bs) :=
  match header_lines (length s) s with
  | Some (hs, r) =>
      match encoded hs with
      | Some q => Some (param_of (B "content-disposition") hs, q, r)
      | None => None
      end
  | None => None
  end.
(** [FormName] and [FileName]: the name under which the part's text is a value of the form; empty for a file, for a part
    without a name and for other dispositions. *)
Definition form_name (v : bs) : option bs :=
  match media_params (trim v) with
  | None => None
  | Some (d, ps) =>
      if bs_eqb d (B "form-data")
      then match param_of (B "filename") ps with [] => Some (param_of (B "name") ps) | _ => Some [] end
      else Some []
  end.
(** [bytes.Index], and what follows. *)
Fixpoint index_of (p s : bs) : option (bs * bs) :=
  if has_prefix p s then Some ([], skipn (length p) s)
  else match s with
       | [] => None
       | c :: s' => match index_of p s' with Some (a, r) => Some (c :: a, r) | None => None end
       end.
(** [scanUntilBoundary]: the value, and the rest from the line end before the delimiter on; [matchAfterPrefix]. *)
Definition after_boundary (r : bs) : bool :=
  has_prefix [CR] r || has_prefix [LF] r || has_prefix [" "%char] r || has_prefix [TAB] r || has_prefix (B "--") r.
Definition value_of_part (bd s : bs) : option (bs * bs) :=
  if has_prefix (B "--" ++ bd) s then if after_boundary (skipn (length (B "--" ++ bd)) s) then Some ([], s) else None
  else match index_of (NL ++ B "--" ++ bd) s with
       | None => None
       | Some (v, r) => if after_boundary r then Some (v, NL ++ B "--" ++ bd ++ r) else None
       end.
(** [ReadForm]; files are kept elsewhere and have no value. *)
Fixpoint read_parts (fuel : nat) (first : bool) (bd s : bs) (m : vals) : option mpres :=
  match fuel with
  | O => None
  | S n =>
      match next_part (length s) first false bd s with
      | None => None
      | Some NEnd => Some (MpOk m)
      | Some NErr => Some MpErr
      | Some (NPart r) =>
          match disposition r with
          | None => None
          | Some (d, r1) =>
              match form_name (fst d), part_decoded (snd d) (value_of_part bd r1) with
              | Some nm, Some (v, r2) => read_parts n false bd r2 (match nm with [] => m | _ => vals_add nm v m end)
              | _, _ => None
              end
          end
      end
  end.
Definition read_form (bd s : bs) : option mpres :=
  match bd with [] => None | _ => read_parts (length s) true bd s [] end.
