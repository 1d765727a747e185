(** The part of Go's regular expressions (regexp, regexp/syntax) that rule texts mostly use, and the words of flag
    values, which the parser compiles to regular expressions (seclang/parser/seclang_token.go:190-202, 231-237,
    scanner.go:369-387).

    The library itself is not in /repo; like GoStrings.v this is a reading of it.  A pattern outside the part has no
    meaning here ([None]): the oracles decide about it alone.  The library's limits on the size and depth of patterns
    are left out. *)
From Verif Require Import Base GoStrings Buffer Types Scanner Registry.

(** Sets of characters are lists of ranges. *)
Inductive re :=
| RSet (inside : bool) (l : list (Z * Z))   (* a character in (or not in) the ranges *)
| REmpty
| RSeq (a b : re)
| RAlt (a b : re)
| RStar (a : re)
| RBegin                                     (* ^, the beginning of the text *)
| REnd                                       (* $, the end of the text *)
| REdge (yes : bool).                        (* \b, the edge of an ASCII word; \B, no such edge *)

(** ** Reading a pattern *)
(** A closing bracket or brace that closes nothing stands for itself. *)
Definition special : bs := B "\.+*?()|[{^$".
Definition is_literal (c : ascii) : bool := (code c <? 128) && negb (existsb (Ascii.eqb c) special).
(** A character under (?i) stands for all that fold to it: two cases of a letter; the Kelvin sign folds to k
    and the long s to s. *)
Definition folded (c : ascii) : list (Z * Z) :=
  let z := code c in
  if in_range "a" "z" c then
    (z, z) :: (z - 32, z - 32) :: (if Ascii.eqb c "k" then [(8490, 8490)] else if Ascii.eqb c "s" then [(383, 383)] else [])
  else if in_range "A" "Z" c then
    (z + 32, z + 32) :: (z, z) :: (if Ascii.eqb c "K" then [(8490, 8490)] else if Ascii.eqb c "S" then [(383, 383)] else [])
  else [(z, z)].
Definition char_re (fold : bool) (c : ascii) : re := RSet true (if fold then folded c else [(code c, code c)]).
(** [appendFoldRange], for ranges within ASCII. *)
Definition fold_range (r : Z * Z) : list (Z * Z) :=
  let '(lo, hi) := r in
  (lo, hi) :: (Z.max lo 65 + 32, Z.min hi 90 + 32) :: (Z.max lo 97 - 32, Z.min hi 122 - 32) ::
  (if zin lo hi 75 || zin lo hi 107 then [(8490, 8490)] else []) ++ (if zin lo hi 83 || zin lo hi 115 then [(383, 383)] else []).
Definition folded_ranges (fold : bool) (l : list (Z * Z)) : list (Z * Z) := if fold then flat_map fold_range l else l.
(** The classes \d, \s and \w. *)
Definition digits : list (Z * Z) := [(48, 57)].
Definition spaces : list (Z * Z) := [(9, 10); (12, 13); (32, 32)].
Definition letters : list (Z * Z) := [(48, 57); (65, 90); (95, 95); (97, 122)].
Definition perl_class (c : ascii) : option (bool * list (Z * Z)) :=
  if Ascii.eqb c "d" then Some (true, digits)
  else if Ascii.eqb c "D" then Some (false, digits)
  else if Ascii.eqb c "s" then Some (true, spaces)
  else if Ascii.eqb c "S" then Some (false, spaces)
  else if Ascii.eqb c "w" then Some (true, letters)
  else if Ascii.eqb c "W" then Some (false, letters)
  else None.
(** What a backslash makes of a control letter or of punctuation. *)
Definition escaped (c : ascii) : option ascii :=
  if Ascii.eqb c "n" then Some LF
  else if Ascii.eqb c "r" then Some CR
  else if Ascii.eqb c "t" then Some TAB
  else if Ascii.eqb c "f" then Some FF
  else if Ascii.eqb c "v" then Some VT
  else if (code c <? 128) && negb (in_range "a" "z" c || in_range "A" "Z" c || is_digit c) then Some c
  else None.
Definition escape_re (fold : bool) (c : ascii) : option re :=
  match perl_class c with
  | Some (inside, l) => Some (RSet inside (folded_ranges fold l))
  | None => match escaped c with Some d => Some (char_re false d) | None => None end
  end.
(** The inside of brackets: characters, perhaps escaped, ranges, and the classes \d, \s and \w.  A minus that is not
    between two characters stands for itself. *)
Definition class_single (c : ascii) : bool := (code c <? 128) && negb (existsb (Ascii.eqb c) (B "[]\")).
Definition class_char (s : bs) : option (ascii * bs) :=
  match s with
  | [] => None
  | c :: s1 =>
      if Ascii.eqb c "\" then
        match s1 with
        | d :: s2 => match escaped d with Some e => Some (e, s2) | None => None end
        | [] => None
        end
      else if class_single c then Some (c, s1) else None
  end.
Definition class_perl (s : bs) : option (list (Z * Z) * bs) :=
  match s with
  | c :: d :: s2 => if Ascii.eqb c "\" then match perl_class d with Some (true, l) => Some (l, s2) | _ => None end else None
  | _ => None
  end.
(** A range goes on after the minus, unless the bracket closes there. *)
Definition range_goes (s : bs) : bool :=
  match s with
  | c :: d :: _ => Ascii.eqb c "-" && negb (Ascii.eqb d "]")
  | _ => false
  end.
Fixpoint class_items (n : nat) (s : bs) : option (list (Z * Z) * bs) :=
  match n with
  | O => None
  | S n' =>
      let more l s' := match class_items n' s' with Some (l', r) => Some (l ++ l', r) | None => None end in
      if has_prefix (B "]") s then Some ([], skipn 1 s)
      else
        match class_perl s with
        | Some (l, s1) => more l s1
        | None =>
            match class_char s with
            | None => None
            | Some (lo, s1) =>
                if range_goes s1 then
                  match class_char (skipn 1 s1) with
                  | Some (hi, s2) => if code lo <=? code hi then more [(code lo, code hi)] s2 else None
                  | None => None
                  end
                else more [(code lo, code lo)] s1
            end
        end
  end.
Definition class_re (fold : bool) (s : bs) : option (re * bs) :=
  let out := has_prefix (B "^") s in
  let s := if out then skipn 1 s else s in
  match class_items (length s) s with
  | Some ([], _) | None => None
  | Some (l, r) => Some (RSet (negb out) (folded_ranges fold l), r)
  end.
(** Repetition after an item; a question mark after it only says which of the matches is preferred. *)
Definition is_rep (c : ascii) : bool := existsb (Ascii.eqb c) (B "*+?{").
Definition lazy (r : re) (s : bs) : option (re * bs) :=
  let s := if has_prefix (B "?") s then skipn 1 s else s in
  match s with
  | c :: _ => if is_rep c then None else Some (r, s)
  | [] => Some (r, s)
  end.
(** A number of up to four digits, at most 1000, without leading zeros. *)
Fixpoint span_digits (s : bs) : bs * bs :=
  match s with
  | [] => ([], [])
  | c :: s' => if is_digit c then let '(a, b) := span_digits s' in (c :: a, b) else ([], s)
  end.
Definition value_of_digits (d : bs) : nat := fold_left (fun n c => n * 10 + (nat_of_ascii c - 48))%nat d 0%nat.
Definition read_count (s : bs) : option (nat * bs) :=
  let '(d, r) := span_digits s in
  match d with
  | [] => None
  | c :: d' =>
      if (Ascii.eqb c "0" && negb (bs_eqb d' [])) || (4 <? length d)%nat then None
      else let n := value_of_digits d in if (n <=? 1000)%nat then Some (n, r) else None
  end.
(** [n] times; up to [n] times. *)
Fixpoint times (n : nat) (a : re) : re := match n with O => REmpty | S n' => RSeq a (times n' a) end.
Fixpoint up_to (n : nat) (a : re) : re := match n with O => REmpty | S n' => RAlt (RSeq a (up_to n' a)) REmpty end.
(** A count in braces, after a single character; counts of groups, whose nesting the library limits, are left out. *)
Definition counted (a : re) (s : bs) : option (re * bs) :=
  match a with
  | RSet _ _ =>
      match read_count s with
      | None => None
      | Some (n, s1) =>
          if has_prefix (B "}") s1 then lazy (times n a) (skipn 1 s1)
          else if has_prefix (B ",}") s1 then lazy (RSeq (times n a) (RStar a)) (skipn 2 s1)
          else if has_prefix (B ",") s1 then
            match read_count (skipn 1 s1) with
            | None => None
            | Some (m, s2) => if (n <=? m)%nat && has_prefix (B "}") s2 then lazy (RSeq (times n a) (up_to (m - n) a)) (skipn 1 s2) else None
            end
          else None
      end
  | _ => None
  end.
Definition repeated (a : re) (s : bs) : option (re * bs) :=
  match s with
  | [] => Some (a, s)
  | c :: s' =>
      if Ascii.eqb c "*" then lazy (RStar a) s'
      else if Ascii.eqb c "+" then lazy (RSeq a (RStar a)) s'
      else if Ascii.eqb c "?" then lazy (RAlt a REmpty) s'
      else if Ascii.eqb c "{" then counted a s'
      else Some (a, s)
  end.
Definition alone (a : re) (s : bs) : option (re * bs) :=
  match s with
  | c :: _ => if is_rep c then None else Some (a, s)
  | [] => Some (a, s)
  end.
(** \A, \z, \b and \B *)
Definition place_re (c : ascii) : option re :=
  if Ascii.eqb c "A" then Some RBegin
  else if Ascii.eqb c "z" then Some REnd
  else if Ascii.eqb c "b" then Some (REdge true)
  else if Ascii.eqb c "B" then Some (REdge false)
  else None.
(** Alternatives end at a bracket or at the end of the pattern. *)
Definition stops (s : bs) : bool := match s with [] => true | c :: _ => Ascii.eqb c "|" || Ascii.eqb c ")" end.
Fixpoint p_alt (n : nat) (fold : bool) (s : bs) : option (re * bs) :=
  match n with
  | O => None
  | S n' =>
      match p_seq n' fold s with
      | Some (a, c :: s1) =>
          if Ascii.eqb c "|" then
            match p_alt n' fold s1 with
            | Some (b, s2) => Some (RAlt a b, s2)
            | None => None
            end
          else Some (a, c :: s1)
      | r => r
      end
  end
with p_seq (n : nat) (fold : bool) (s : bs) : option (re * bs) :=
  match n with
  | O => None
  | S n' =>
      if stops s then Some (REmpty, s)
      else
        match p_item n' fold s with
        | Some (a, s1) =>
            match p_seq n' fold s1 with
            | Some (b, s2) => Some (RSeq a b, s2)
            | None => None
            end
        | None => None
        end
  end
with p_item (n : nat) (fold : bool) (s : bs) : option (re * bs) :=
  match n with
  | O => None
  | S n' =>
      match s with
      | [] => None
      | c :: s1 =>
          if Ascii.eqb c "(" then
            match p_alt n' (fold || has_prefix (B "?i:") s1) (if has_prefix (B "?:") s1 then skipn 2 s1 else if has_prefix (B "?i:") s1 then skipn 3 s1 else s1) with
            | Some (a, c' :: s2) => if Ascii.eqb c' ")" then repeated a s2 else None
            | _ => None
            end
          else if Ascii.eqb c "^" then alone RBegin s1
          else if Ascii.eqb c "$" then alone REnd s1
          else if Ascii.eqb c "." then repeated (RSet false [(10, 10)]) s1
          else if Ascii.eqb c "[" then
            match class_re fold s1 with Some (a, s2) => repeated a s2 | None => None end
          else if Ascii.eqb c "\" then
            match s1 with
            | d :: s2 =>
                match place_re d with
                | Some a => alone a s2
                | None => match escape_re fold d with Some a => repeated a s2 | None => None end
                end
            | [] => None
            end
          else if is_literal c then repeated (char_re fold c) s1
          else None
      end
  end.
(** [regexp.Compile]: (?i) at the beginning, then alternatives to the end. *)
Definition compile (p : bs) : option re :=
  let fold := has_prefix (B "(?i)") p in
  match p_alt (4 * length p + 4) fold (if fold then skipn 4 p else p) with
  | Some (r, []) => Some r
  | _ => None
  end.

(** ** Matching *)
Definition in_ranges (l : list (Z * Z)) (c : Z) : bool := existsb (fun r => zin (fst r) (snd r) c) l.
(** Up to [n] times a step, to a place with [P]. *)
Fixpoint star_loop (step : (nat -> bool) -> nat -> bool) (P : nat -> bool) (n : nat) (i : nat) : bool :=
  P i || match n with O => false | S n' => step (star_loop step P n') i end.
(** [IsWordChar], at the place [i]; whether the two sides of a place differ. *)
Definition word_at (s : list Z) (i : nat) : bool := match nth_error s i with Some c => in_ranges letters c | None => false end.
Definition edge_at (s : list Z) (i : nat) : bool := xorb (match i with O => false | S j => word_at s j end) (word_at s i).
(** [wp r s P i]: from place [i] of the text [s] the expression leads to a place with [P]. *)
Fixpoint wp (r : re) (s : list Z) (P : nat -> bool) (i : nat) {struct r} : bool :=
  match r with
  | RSet inside l => match nth_error s i with Some c => Bool.eqb inside (in_ranges l c) && P (S i) | None => false end
  | REmpty => P i
  | RSeq a b => wp a s (wp b s P) i
  | RAlt a b => wp a s P i || wp b s P i
  | RStar a => star_loop (wp a s) P (length s) i
  | RBegin => Nat.eqb i 0 && P i
  | REnd => Nat.eqb i (length s) && P i
  | REdge yes => Bool.eqb yes (edge_at s i) && P i
  end.
(** [MatchString]: a match anywhere. *)
Definition search (r : re) (s : list Z) : bool := existsb (wp r s (fun _ => true)) (seq 0 (S (length s))).
Definition match_string (r : re) (s : bs) : bool := search r (runes s).

(** ** The words of flag values *)
(** seclang/parser/seclang_token.go:190-194 and 205: the map [Values], from tokens to patterns. *)
Definition values := list (Z * bs).
(** fmt.Sprintf("(?i)^%s$", regex) *)
Definition value_pattern (w : bs) : bs := B "(?i)^" ++ w ++ B "$".
(** seclang_token.go:231-237 [RegisterValue]; MustCompile panics. *)
Definition register_value (O : oracles) (tk : Z) (w : bs) (vs : values) : out values :=
  if rx_ok O (value_pattern w) then Ret (zmap_set tk w vs) else Panic.
(** seclang_token.go:196-202 [init]; the tokens are 132, 133 and 134. *)
Definition vk_code (k : vktok) : Z := match k with KElse => 132 | KOff => 133 | KOn => 134 end.
Definition init_values (O : oracles) : out values :=
  vs <- register_value O (vk_code KElse) (B "DetectionOnly") [] ;;
  vs <- register_value O (vk_code KOff) (B "Off") vs ;;
  register_value O (vk_code KOn) (B "On") vs.
(** Any registrations, in order. *)
Fixpoint register_values (O : oracles) (l : list (Z * bs)) (vs : values) : out values :=
  match l with
  | [] => Ret vs
  | (tk, w) :: l' => vs' <- register_value O tk w vs ;; register_values O l' vs'
  end.
(** scanner.go:375-386: the loop over the tokens of [ReadValue]. *)
Fixpoint value_of (O : oracles) (vs : values) (tks : list Z) (str : bs) : res Z :=
  match tks with
  | [] => RErr EOther
  | tk :: tks' =>
      match zmap_get tk vs with
      | None => RErr EOther
      | Some w => if rx_match O (value_pattern w) str then ROk tk else value_of O vs tks' str
      end
  end.
(** scanner.go:369-387 [ReadValue] *)
Definition read_value_from (O : oracles) (vs : values) (fuel : nat) (tks : list Z) (s : scanner) : out (scanner * res Z) :=
  '(s1, r) <- read_string fuel s ;;
  match r with
  | RErr e => Ret (s1, RErr e)
  | ROk str => Ret (s1, value_of O vs tks str)
  end.
