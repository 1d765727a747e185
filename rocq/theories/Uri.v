(** Request targets and [url.URL.String] (net/url), for URLs as a server gets them: what REQUEST_URI
    (modsecurity/variables/request_uri.go:21-32) shows of the text the client sent.

    The library is not in /repo; like GoStrings.v this is a reading of it ([shouldEscape], [escape], [unescape],
    [validEncoded], [EscapedPath], [String], [parse] with viaRequest, [setPath]).  Of the fields that [u_rest]
    stands for only RawPath and ForceQuery are read here: a URL from a request target has no fragment.  [u_rest] is
    RawPath, followed by a question mark if ForceQuery is set; RawPath itself never has one.  Targets with a scheme
    (requests to proxies) are left out, as is the refusal of very long ones. *)
From Verif Require Import Base GoStrings Types.

Definition is_alnum (c : ascii) : bool := in_range "a" "z" c || in_range "A" "Z" c || is_digit c.
Definition among (l : bs) (c : ascii) : bool := existsb (Ascii.eqb c) l.
(** [shouldEscape] in a path. *)
Definition path_escaped (c : ascii) : bool := negb (is_alnum c || among (B "-_.~") c || among (B "$&+,/:;=@") c).
Definition hex_digit (z : Z) : ascii := nth (Z.to_nat z) (B "0123456789ABCDEF") "0"%char.
Definition escape_byte (c : ascii) : bs :=
  if path_escaped c then ["%"%char; hex_digit (code c / 16); hex_digit (code c mod 16)] else [c].
Definition path_escape (s : bs) : bs := flat_map escape_byte s.
(** [unescape] in a path: [None] on a malformed escape. *)
Fixpoint path_unescape (s : bs) : option bs :=
  match s with
  | [] => Some []
  | c :: s1 =>
      if Ascii.eqb c "%" then
        match s1 with
        | a :: b :: s' =>
            if is_hex a && is_hex b then option_map (cons (byte_of (unhex a * 16 + unhex b))) (path_unescape s') else None
        | _ => None
        end
      else option_map (cons c) (path_unescape s1)
  end.
(** [validEncoded] in a path. *)
Definition valid_encoded (s : bs) : bool := forallb (fun c => among (B "!$&'()*+,;=:@[]%") c || negb (path_escaped c)) s.
(** [EscapedPath] *)
Definition escaped_path (path raw : bs) : bs :=
  if negb (bs_eqb raw []) && valid_encoded raw && match path_unescape raw with Some p => bs_eqb p path | None => false end then raw
  else if bs_eqb path (B "*") then B "*"
  else path_escape path.
(** RawPath and ForceQuery. *)
Definition rest_parts (rest : bs) : bs * bool :=
  match rev rest with
  | c :: r => if Ascii.eqb c "?" then (rev r, true) else (rest, false)
  | [] => ([], false)
  end.
(** [String] without scheme, opaque part, user and host. *)
Definition uri_string (path query rest : bs) : bs :=
  let '(raw, force) := rest_parts rest in
  let p := escaped_path path raw in
  (if among (fst (cut "/" p)) ":" then B "./" else []) ++ p ++ (if force || negb (bs_eqb query []) then "?"%char :: query else []).
(** [url.ParseRequestURI] on a target beginning with a slash, or on the star. *)
Definition is_ctl (c : ascii) : bool := (code c <? 32) || (code c =? 127).
Definition set_path (raw query : bs) (force : bool) : option url :=
  match path_unescape raw with
  | Some path =>
      Some (Url [] [] None [] path query ((if bs_eqb raw (path_escape path) then [] else raw) ++ (if force then B "?" else [])))
  | None => None
  end.
Definition parse_target (t : bs) : option url :=
  if existsb is_ctl t then None
  else if bs_eqb t (B "*") then Some (Url [] [] None [] (B "*") [] [])
  else
    match t with
    | c :: _ =>
        if Ascii.eqb c "/" then
          match cut "?" t with
          | (raw, Some []) => set_path raw [] true
          | (raw, Some q) => set_path raw q false
          | (raw, None) => set_path raw [] false
          end
        else None
    | [] => None
    end.
