(** The parts of Go's standard library [strings], [strconv], [unicode/utf8] and
    [net/url] that the repository's behaviour rests on.  These are readings of
    the Go standard library (not of /repo); they are part of the trusted base. *)
From Verif Require Import Base.

(** ** strings *)

(** [strings.HasPrefix(s, p)] *)
Fixpoint has_prefix (p s : bs) : bool :=
  match p, s with
  | [], _ => true
  | a :: p', b :: s' => Ascii.eqb a b && has_prefix p' s'
  | _, _ => false
  end.

(** [strings.SplitN(s, c, 2)] / [strings.Cut] for a one-byte separator:
    the text before the first separator and, if there is one, the text after. *)
Fixpoint cut (c : ascii) (s : bs) : bs * option bs :=
  match s with
  | [] => ([], None)
  | x :: s' =>
      if Ascii.eqb x c then ([], Some s')
      else let '(a, b) := cut c s' in (x :: a, b)
  end.

(** [strings.Split(s, c)] for a one-byte separator. *)
Fixpoint split (c : ascii) (s : bs) : list bs :=
  match s with
  | [] => [[]]
  | x :: s' =>
      if Ascii.eqb x c then [] :: split c s'
      else match split c s' with
           | [] => [[x]]
           | p :: ps => (x :: p) :: ps
           end
  end.

(** [strings.IndexAny(s, seps)] for one-byte (ASCII) separators. *)
Fixpoint index_any (seps : bs) (s : bs) : option nat :=
  match s with
  | [] => None
  | x :: s' =>
      if existsb (Ascii.eqb x) seps then Some O
      else option_map S (index_any seps s')
  end.

(** The UTF-8 encodings of the runes for which [unicode.IsSpace] holds. *)
Definition space_encs : list bs :=
  [ [TAB]; [LF]; [VT]; [FF]; [CR]; [SP];
    ["194";"133"]; ["194";"160"];                       (* U+0085 U+00A0 *)
    ["225";"154";"128"];                                (* U+1680 *)
    ["226";"128";"128"]; ["226";"128";"129"]; ["226";"128";"130"];
    ["226";"128";"131"]; ["226";"128";"132"]; ["226";"128";"133"];
    ["226";"128";"134"]; ["226";"128";"135"]; ["226";"128";"136"];
    ["226";"128";"137"]; ["226";"128";"138"];           (* U+2000..U+200A *)
    ["226";"128";"168"]; ["226";"128";"169"];           (* U+2028 U+2029 *)
    ["226";"128";"175"];                                (* U+202F *)
    ["226";"129";"159"];                                (* U+205F *)
    ["227";"128";"128"] ]%char.                         (* U+3000 *)

Definition strip_one (encs : list bs) (s : bs) : option bs :=
  match find (fun e => has_prefix e s) encs with
  | Some e => Some (skipn (length e) s)
  | None => None
  end.

Fixpoint trim_left_fuel (n : nat) (encs : list bs) (s : bs) : bs :=
  match n with
  | O => s
  | S n' => match strip_one encs s with
            | Some s' => trim_left_fuel n' encs s'
            | None => s
            end
  end.

(** [strings.TrimSpace]: strip leading, then trailing, Unicode white space.
    Each step strips at least one byte, so [length s] steps suffice. *)
Definition trim_left (s : bs) : bs := trim_left_fuel (length s) space_encs s.
Definition trim_right (s : bs) : bs :=
  rev (trim_left_fuel (length s) (map (@rev ascii) space_encs) (rev s)).
Definition trim_space (s : bs) : bs := trim_right (trim_left s).

(** ** strconv *)

Fixpoint digits_val (acc : Z) (s : bs) : option Z :=
  match s with
  | [] => Some acc
  | c :: s' => if is_digit c then digits_val (10 * acc + (code c - 48)) s' else None
  end.

(** Unsigned decimal literal: at least one digit. *)
Definition parse_digits (s : bs) : option Z :=
  match s with
  | [] => None
  | _ => digits_val 0 s
  end.

Definition min_int64 : Z := - 2 ^ 63.
Definition max_int64 : Z := 2 ^ 63 - 1.
Definition in_int64 (z : Z) : bool := (min_int64 <=? z) && (z <=? max_int64).

(** [strconv.ParseInt(s, 10, 64)]; [None] is any error (syntax or range).
    [strconv.Atoi] has the same domain and value on 64-bit platforms. *)
Definition parse_int64 (s : bs) : option Z :=
  let v :=
    match s with
    | "-"%char :: s' => option_map Z.opp (parse_digits s')
    | "+"%char :: s' => parse_digits s'
    | _ => parse_digits s
    end in
  match v with
  | Some z => if in_int64 z then Some z else None
  | None => None
  end.
Definition atoi := parse_int64.

(** ** unicode/utf8 *)

Definition rune_error : Z := 65533. (* U+FFFD *)

(** [utf8.EncodeRune]: surrogates and out-of-range values become U+FFFD. *)
Definition encode_rune (r : Z) : bs :=
  let r := if (r <? 0) || (1114111 <? r) || ((55296 <=? r) && (r <=? 57343))
           then rune_error else r in
  if r <? 128 then [byte_of r]
  else if r <? 2048 then [byte_of (192 + r / 64); byte_of (128 + r mod 64)]
  else if r <? 65536 then
    [byte_of (224 + r / 4096); byte_of (128 + (r / 64) mod 64); byte_of (128 + r mod 64)]
  else
    [byte_of (240 + r / 262144); byte_of (128 + (r / 4096) mod 64);
     byte_of (128 + (r / 64) mod 64); byte_of (128 + r mod 64)].

Definition zin (lo hi x : Z) : bool := (lo <=? x) && (x <=? hi).
Definition cont (c : ascii) : bool := zin 128 191 (code c).

(** [utf8.DecodeRuneInString] on a non-empty string: rune and width.
    Invalid encodings give (U+FFFD, 1). *)
Definition decode_rune (s : bs) : Z * nat :=
  let bad := (rune_error, 1%nat) in
  match s with
  | [] => (rune_error, 0%nat)
  | a :: s1 =>
      let x := code a in
      if x <? 128 then (x, 1%nat)
      else if zin 194 223 x then
        match s1 with
        | b :: _ => if cont b then ((x - 192) * 64 + (code b - 128), 2%nat) else bad
        | _ => bad
        end
      else if zin 224 239 x then
        match s1 with
        | b :: c :: _ =>
            let lo := if x =? 224 then 160 else 128 in
            let hi := if x =? 237 then 159 else 191 in
            if zin lo hi (code b) && cont c
            then ((x - 224) * 4096 + (code b - 128) * 64 + (code c - 128), 3%nat)
            else bad
        | _ => bad
        end
      else if zin 240 244 x then
        match s1 with
        | b :: c :: d :: _ =>
            let lo := if x =? 240 then 144 else 128 in
            let hi := if x =? 244 then 143 else 191 in
            if zin lo hi (code b) && cont c && cont d
            then ((x - 240) * 262144 + (code b - 128) * 4096
                  + (code c - 128) * 64 + (code d - 128), 4%nat)
            else bad
        | _ => bad
        end
      else bad
  end.

(** The runes Go's [for _, c := range s] yields. *)
Fixpoint runes_fuel (n : nat) (s : bs) : list Z :=
  match n, s with
  | _, [] => []
  | O, _ => []
  | S n', _ => let '(r, w) := decode_rune s in r :: runes_fuel n' (skipn w s)
  end.
Definition runes (s : bs) : list Z := runes_fuel (length s) s.

(** [strings.Map(mapping, s)] with a mapping that may carry state (a Go closure):
    negative results drop the rune.  Go >= 1.12 behaviour: an invalid byte is
    passed to the mapping as U+FFFD and written back as the encoding of U+FFFD. *)
Fixpoint map_runes {S : Type} (f : S -> Z -> S * Z) (st : S) (rs : list Z) : bs :=
  match rs with
  | [] => []
  | r :: rs' =>
      let '(st', r') := f st r in
      (if r' <? 0 then [] else encode_rune r') ++ map_runes f st' rs'
  end.
Definition strings_map {S : Type} (f : S -> Z -> S * Z) (st : S) (s : bs) : bs :=
  map_runes f st (runes s).

(** [unicode.ToLower]: fixed on ASCII, [ul] elsewhere. *)
Definition lower_rune (ul : Z -> Z) (r : Z) : Z :=
  if r <? 128 then (if zin 65 90 r then r + 32 else r) else ul r.

(** [strings.ToLower].  The Go fast path for ASCII strings computes the same
    as mapping every rune. *)
Definition to_lower (ul : Z -> Z) (s : bs) : bs :=
  strings_map (fun (_ : unit) r => (tt, lower_rune ul r)) tt s.

(** ASCII-only lower casing of a byte, used where the text is known to be
    ASCII letters ([strings.ToLower] of a scanned word; [(?i)] matching). *)
Definition lower_ascii (c : ascii) : ascii :=
  if in_range "A" "Z" c then byte_of (code c + 32) else c.

(** ** net/url *)

Definition is_hex (c : ascii) : bool :=
  in_range "0" "9" c || in_range "a" "f" c || in_range "A" "F" c.
Definition unhex (c : ascii) : Z :=
  if in_range "0" "9" c then code c - 48
  else if in_range "a" "f" c then code c - 97 + 10
  else if in_range "A" "F" c then code c - 65 + 10
  else 0.

(** [url.QueryUnescape]: [None] on a malformed escape. *)
Fixpoint query_unescape (s : bs) : option bs :=
  match s with
  | [] => Some []
  | "%"%char :: s1 =>
      match s1 with
      | a :: b :: s' =>
          if is_hex a && is_hex b
          then option_map (cons (byte_of (unhex a * 16 + unhex b))) (query_unescape s')
          else None
      | _ => None
      end
  | "+"%char :: s' => option_map (cons SP) (query_unescape s')
  | c :: s' => option_map (cons c) (query_unescape s')
  end.

(** Splitting a query into its non-empty fields: at '&', and also at ';' for Go
    releases before 1.17 ([semi]). *)
Fixpoint split_fields (semi : bool) (s : bs) : list bs :=
  match s with
  | [] => [[]]
  | x :: s' =>
      if Ascii.eqb x "&" || (semi && Ascii.eqb x ";") then [] :: split_fields semi s'
      else match split_fields semi s' with
           | [] => [[x]]
           | p :: ps => (x :: p) :: ps
           end
  end.

(** One field: [None] = decoding error (the field is skipped and the error
    remembered), otherwise the decoded pair. *)
Definition parse_field (semi : bool) (f : bs) : option (bs * bs) :=
  if negb semi && existsb (Ascii.eqb ";") f then None
  else
    let '(k, v) := cut "=" f in
    match query_unescape k, query_unescape (match v with Some v => v | None => [] end) with
    | Some k', Some v' => Some (k', v')
    | _, _ => None
    end.

Fixpoint parse_fields (semi : bool) (fs : list bs) (m : vals) (bad : bool) : vals * bool :=
  match fs with
  | [] => (m, bad)
  | f :: fs' =>
      match f with
      | [] => parse_fields semi fs' m bad
      | _ => match parse_field semi f with
             | Some (k, v) => parse_fields semi fs' (vals_add k v m) bad
             | None => parse_fields semi fs' m true
             end
      end
  end.

(** [url.ParseQuery]: the values of all decodable fields, and whether some field
    was malformed (Go's non-nil error). *)
Definition parse_query (semi : bool) (q : bs) : vals * bool :=
  parse_fields semi (split_fields semi q) [] false.
