(** Model of package [utils]. *)
From Verif Require Import Base GoStrings.

(** utils/urlencode.go:56-66 [IsHex] and 68-78 [UnHex] compute the same functions
    as the ones in net/url. *)
Definition IsHex (c : ascii) : bool :=
  if in_range "0" "9" c then true
  else if in_range "a" "f" c then true
  else if in_range "A" "F" c then true
  else false.
Definition UnHex (c : ascii) : Z :=
  if in_range "0" "9" c then code c - code "0"
  else if in_range "a" "f" c then code c - code "a" + 10
  else if in_range "A" "F" c then code c - code "A" + 10
  else 0.

(** utils/urlencode.go:25-37: the rune denoted by the four hex digits of [%uXXXX].
    Go's shift-and-or on disjoint bit ranges is written as multiplication and
    addition. *)
Definition uni_value (c0 c1 c2 c3 : Z) : Z :=
  let v := c0 * 16 + c1 in
  if v =? 255 then (c2 * 16 + c3) + 32
  else (v * 16 + c2) * 16 + c3.

(** utils/urlencode.go:15-55 [urldecode].  The index loop over [s[i:]] is
    structural recursion on the rest of the string; [len(s) > i+2] is "at least
    two more bytes follow", [len(s) > i+5] "at least five more".  The result is
    the pair (output, errCount). *)
Fixpoint urldecode (uni : bool) (s : bs) : bs * Z :=
  match s with
  | [] => ([], 0)
  | c :: s1 =>
      if Ascii.eqb c "%" then
        let malformed :=                                   (* line 41-44 *)
          let '(o, e) := urldecode uni s1 in ("%"%char :: o, e + 1) in
        let try_uni :=                                     (* line 24-40 *)
          match s1 with
          | u :: h0 :: h1 :: h2 :: h3 :: s6 =>
              if uni && (Ascii.eqb u "u" || Ascii.eqb u "U")
                 && IsHex h0 && IsHex h1 && IsHex h2 && IsHex h3
              then let '(o, e) := urldecode uni s6 in
                   (encode_rune (uni_value (UnHex h0) (UnHex h1) (UnHex h2) (UnHex h3)) ++ o, e)
              else malformed
          | _ => malformed
          end in
        match s1 with                                      (* line 21-23 *)
        | a :: b :: s3 =>
            if IsHex a && IsHex b
            then let '(o, e) := urldecode uni s3 in
                 (byte_of (UnHex a * 16 + UnHex b) :: o, e)
            else try_uni
        | _ => try_uni
        end
      else if Ascii.eqb c "+" then                         (* line 45-47 *)
        let '(o, e) := urldecode uni s1 in (SP :: o, e)
      else                                                 (* line 48-50 *)
        let '(o, e) := urldecode uni s1 in (c :: o, e)
  end.

(** utils/urlencode.go:8-13 *)
Definition UrlDecode (s : bs) : bs * Z := urldecode false s.
Definition UrlDecodeUni (s : bs) : bs * Z := urldecode true s.

(** utils/strings.go:5-12 [StringInSlice] *)
Fixpoint StringInSlice (s : bs) (slice : list bs) : bool :=
  match slice with
  | [] => false
  | v :: r => if bs_eqb v s then true else StringInSlice s r
  end.

(** utils/strings.go:14-21 [StringInRegexSlice]; a compiled regexp is represented
    by its source, [rx_match] is the matching oracle. *)
Fixpoint StringInRegexSlice (rx_match : bs -> bs -> bool) (s : bs) (slice : list bs) : bool :=
  match slice with
  | [] => false
  | v :: r => if rx_match v s then true else StringInRegexSlice rx_match s r
  end.

(** utils/strings.go:23-47 [SameStringSlice]; [diff] is the Go map string -> int. *)
Fixpoint diff_incr (x : bs) (d : list (bs * Z)) : list (bs * Z) :=
  match d with
  | [] => [(x, 1)]
  | (k, n) :: d' => if bs_eqb x k then (k, n + 1) :: d' else (k, n) :: diff_incr x d'
  end.
(** lines 35-41: [None] when absent; otherwise decrement and delete at zero. *)
Fixpoint diff_decr (y : bs) (d : list (bs * Z)) : option (list (bs * Z)) :=
  match d with
  | [] => None
  | (k, n) :: d' =>
      if bs_eqb y k
      then Some (if n - 1 =? 0 then d' else (k, n - 1) :: d')
      else option_map (cons (k, n)) (diff_decr y d')
  end.
Fixpoint diff_all (ys : list bs) (d : list (bs * Z)) : option (list (bs * Z)) :=
  match ys with
  | [] => Some d
  | y :: ys' => match diff_decr y d with
                | None => None
                | Some d' => diff_all ys' d'
                end
  end.
Definition SameStringSlice (x y : list bs) : bool :=
  if negb (Nat.eqb (length x) (length y)) then false
  else match diff_all y (fold_left (fun d v => diff_incr v d) x []) with
       | None => false
       | Some d => Nat.eqb (length d) 0
       end.
