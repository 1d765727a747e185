(** Content types: [mime.ParseMediaType] for header values in ASCII, without the parameters of RFC 2231
    (modsecurity/variables/request_body.go:34, request_body_parser.go:63, response_content_type.go:26).

    The library is not in /repo; like GoStrings.v this is a reading of it ([checkMediaTypeDisposition],
    [consumeToken], [consumeValue], [consumeMediaParam], [ParseMediaType]).  A header value outside that part has
    no meaning here ([None]): the oracle decides about it alone.  A parameter given twice with one and the same value
    is left out too, as releases differ about it. *)
From Verif Require Import Base GoStrings Buffer Types Transaction Variables.

Definition tspecial : bs := B "()<>@,;:\""/[]?=".
Definition token_char (c : ascii) : bool := (32 <? code c) && (code c <? 127) && negb (existsb (Ascii.eqb c) tspecial).
Definition is_space (c : ascii) : bool := ((9 <=? code c) && (code c <=? 13)) || (code c =? 32).
Definition trim_space_left (s : bs) : bs := drop_while is_space s.
Definition trim (s : bs) : bs := rev (trim_space_left (rev (trim_space_left s))).
Definition lower (s : bs) : bs := map lower_ascii s.
(** [consumeToken] *)
Definition token (s : bs) : bs * bs := (take_while token_char s, drop_while token_char s).
(** [checkMediaTypeDisposition] *)
Definition good_type (s : bs) : bool :=
  match token s with
  | ([], _) => false
  | (_, []) => true
  | (_, c :: r) =>
      Ascii.eqb c "/" && match token r with
                         | (_ :: _, []) => true
                         | _ => false
                         end
  end.
(** [consumeValue] after the quote: the text and what follows the closing quote. *)
Fixpoint quoted_value (s : bs) : option (bs * bs) :=
  match s with
  | [] => None
  | c :: s1 =>
      if Ascii.eqb c """" then Some ([], s1)
      else
        match s1 with
        | d :: s2 =>
            if Ascii.eqb c "\" && existsb (Ascii.eqb d) tspecial
            then match quoted_value s2 with Some (v, r) => Some (d :: v, r) | None => None end
            else if Ascii.eqb c CR || Ascii.eqb c LF then None
            else match quoted_value s1 with Some (v, r) => Some (c :: v, r) | None => None end
        | [] => None
        end
  end.
(** [consumeValue]; [None] if there is none. *)
Definition value (s : bs) : option (bs * bs) :=
  match s with
  | c :: s1 => if Ascii.eqb c """" then quoted_value s1 else match token s with ([], _) => None | r => Some r end
  | [] => None
  end.
(** [consumeMediaParam]: key, value and rest. *)
Definition param (v : bs) : option (bs * bs * bs) :=
  match trim_space_left v with
  | c :: r1 =>
      if Ascii.eqb c ";" then
        match token (trim_space_left r1) with
        | ([], _) => None
        | (k, r2) =>
            match trim_space_left r2 with
            | c :: r3 =>
                if Ascii.eqb c "=" then match value (trim_space_left r3) with Some (x, r4) => Some (lower k, x, r4) | None => None end
                else None
            | [] => None
            end
        end
      else None
  | [] => None
  end.
(** The outcome of the loop over the parameters: read, not well formed, or one given twice. *)
Inductive pres := PsOk (ps : list (bs * bs)) | PsBad | PsTwice.
Fixpoint get (k : bs) (ps : list (bs * bs)) : option bs :=
  match ps with
  | [] => None
  | (k', v) :: ps' => if bs_eqb k k' then Some v else get k ps'
  end.
Fixpoint params (fuel : nat) (ps : list (bs * bs)) (v : bs) : option pres :=
  match trim_space_left v with
  | [] => Some (PsOk ps)
  | _ =>
      match fuel with
      | O => None
      | S n =>
          match param v with
          | None => if bs_eqb (trim v) (B ";") then Some (PsOk ps) else Some PsBad
          | Some (k, x, r) =>
              if existsb (Ascii.eqb "*") k then None
              else match get k ps with
                   | Some y => if bs_eqb x y then None else Some PsTwice
                   | None => params n ((k, x) :: ps) r
                   end
          end
      end
  end.
(** [ParseMediaType]: the media type and the parameters. *)
Definition media_params (ct : bs) : option (bs * list (bs * bs)) :=
  if negb (forallb (fun c => code c <? 128) ct) then None
  else
    let base := fst (cut ";" ct) in
    let mt := trim (lower base) in
    if negb (good_type mt) then Some ([], [])
    else match params (length ct) [] (skipn (length base) ct) with
         | None => None
         | Some (PsOk ps) => Some (mt, ps)
         | Some PsBad => Some (mt, [])
         | Some PsTwice => Some ([], [])
         end.
(** params[k], empty if there is none *)
Definition param_of (k : bs) (ps : list (bs * bs)) : bs := match get k ps with Some v => v | None => [] end.
(** The media type and params["boundary"]. *)
Definition media (ct : bs) : option (bs * bs) :=
  match media_params ct with
  | Some (mt, ps) => Some (mt, param_of (B "boundary") ps)
  | None => None
  end.
