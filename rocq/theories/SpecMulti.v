(** Specification vocabulary: the text of a multipart form. *)
From Verif Require Import Base Buffer BufferFacts Types SpecText SpecVars SpecMedia Multi.

(** Multipart forms of up to 2000 bytes are read as the library does it, where Multi.v says how.  Its reader fills a
    buffer of 4096 bytes, and each [Read] of the body begins at its beginning again: what it sees is the body over and over,
    and two copies of it fit.  Files among the parts stay in memory below the limit [m]. *)
Definition multipart_library (O : oracles) : Prop :=
  forall b bd m r, b_readed b = false -> 2 * Z.of_nat (length (content b)) <= m -> (length (content b) <= 2000)%nat -> read_form bd (content b ++ content b) = Some r ->
    fst (multipart O b bd m) = r.

Definition line_end : bs := [CR; LF].
(** [p] occurs in [s]. *)
Definition occurs (p s : bs) : Prop := exists a b, s = a ++ p ++ b.
Definition tabs_and_spaces (s : bs) : Prop := Forall (fun c => c = " "%char \/ c = TAB) s.
Definition header_text (s : bs) : Prop := Forall (fun c => 32 <= code c <= 126 \/ code c = 9) s.
(** No white space at either end. *)
Definition no_edges (s : bs) : Prop := (forall c r, s = c :: r -> ~ white c) /\ (forall c r, s = r ++ [c] -> ~ white c).
(** The lines of a header end either way. *)
Definition either_end (e : bs) : Prop := e = [LF] \/ e = line_end.
(** Further lines of a value begin with blanks; they add a space and their text. *)
Inductive continued : bs -> bs -> Prop :=
| ct_end : continued [] []
| ct_line : forall w x b e c t, w <> [] -> tabs_and_spaces w -> x <> [] -> header_text x -> no_edges x -> tabs_and_spaces b -> either_end e -> continued c t ->
    continued (" "%char :: x ++ c) (w ++ x ++ b ++ e ++ t).
(** The header of a part, line by line: keys in lower case, and values with what blanks surround them. *)
Inductive part_header : list (bs * bs) -> bs -> Prop :=
| ph_end : part_header [] []
| ph_line : forall key k v e hs s, token_word key -> in_lower key k -> header_text v -> either_end e -> part_header hs s ->
    part_header ((k, v) :: hs) (key ++ ":"%char :: v ++ e ++ s)
| ph_more : forall key k v b e c t hs s, token_word key -> in_lower key k -> header_text v -> (forall d r, v = r ++ [d] -> d <> " "%char /\ d <> TAB) -> tabs_and_spaces b -> either_end e ->
    continued c t -> c <> [] -> part_header hs s -> part_header ((k, v ++ c) :: hs) (key ++ ":"%char :: v ++ b ++ e ++ t ++ s).
(** The first line [k] of a header. *)
Definition header_line (k v : bs) (hs : list (bs * bs)) : Prop := exists a b, hs = a ++ (k, v) :: b /\ ~ In k (map fst a).
(** The text of the part stands for itself: the first Content-Transfer-Encoding, if there is one, is not quoted-printable. *)
Definition unencoded (hs : list (bs * bs)) : Prop :=
  forall b1 v b2, header_line (B "content-transfer-encoding") (b1 ++ v ++ b2) hs -> tabs_and_spaces b1 -> tabs_and_spaces b2 -> ~ in_lower v (B "quoted-printable").
(** It is quoted-printable. *)
Definition in_printable (hs : list (bs * bs)) : Prop :=
  exists b1 b2, header_line (B "content-transfer-encoding") (b1 ++ B "quoted-printable" ++ b2) hs /\ tabs_and_spaces b1 /\ tabs_and_spaces b2.
(** [e] spells [v]: = and two digits stand for a byte, other bytes that may be sent for themselves. *)
Inductive spells_printable : bs -> bs -> Prop :=
| sq_end : spells_printable [] []
| sq_same : forall c e v, c <> "="%char -> code c = 9 \/ 32 <= code c <= 126 \/ 128 <= code c -> spells_printable e v -> spells_printable (c :: e) (c :: v)
| sq_hex : forall h l hi lo b e v, hexdigit h hi -> hexdigit l lo -> code b = 16 * hi + lo -> spells_printable e v -> spells_printable ("="%char :: h :: l :: e) (b :: v).
(** Line by line: blanks at the end of a line are no part of the value, with = as its last byte a line goes on. *)
Inductive printable_lines : bs -> bs -> Prop :=
| pl_last : forall e w v, spells_printable e v -> tabs_and_spaces w -> (forall c r, e = r ++ [c] -> c <> " "%char /\ c <> TAB) -> printable_lines (e ++ w) v
| pl_line : forall e w v n r u, spells_printable e v -> tabs_and_spaces w -> (forall c r, e = r ++ [c] -> c <> " "%char /\ c <> TAB) -> either_end n -> printable_lines r u ->
    printable_lines (e ++ w ++ n ++ r) (v ++ n ++ u)
| pl_goes_on : forall e v n r u, spells_printable e v -> either_end n -> printable_lines r u -> printable_lines (e ++ "="%char :: n ++ r) (v ++ u).
(** The value [v] of a part with the text [raw]. *)
Inductive part_says (hs : list (bs * bs)) : bs -> bs -> Prop :=
| py_itself : forall v, unencoded hs -> part_says hs v v
| py_printable : forall raw v, in_printable hs -> printable_lines raw v -> part_says hs raw v.
(** [d] is the disposition. *)
Definition disposed (hs : list (bs * bs)) (d : bs) : Prop :=
  exists b1 b2, header_line (B "content-disposition") (b1 ++ d ++ b2) hs /\ tabs_and_spaces b1 /\ tabs_and_spaces b2 /\ no_edges d.
(** Which field a part with the value [v] is: the name given by the disposition form-data, unless there is a file name;
    a file, a part without a name, one with another disposition and one with a doubled parameter are none. *)
Inductive names (v : bs) : list (bs * bs) -> bs -> Prop :=
| nm_field : forall d qs k, content_type (B "form-data") qs d -> NoDup (map fst qs) -> In (B "name", k) qs -> k <> [] ->
    (forall f, In (B "filename", f) qs -> f = []) -> names v [(k, v)] d
| nm_file : forall d qs f, content_type (B "form-data") qs d -> NoDup (map fst qs) -> In (B "filename", f) qs -> f <> [] -> names v [] d
| nm_nameless : forall d qs, content_type (B "form-data") qs d -> NoDup (map fst qs) -> (forall k, In (B "name", k) qs -> k = []) -> names v [] d
| nm_other : forall d mt qs, content_type mt qs d -> NoDup (map fst qs) -> mt <> B "form-data" -> names v [] d
| nm_odd : forall d mt qs, content_type mt qs d -> at_odds qs -> names v [] d.
Inductive part_fields (v : bs) (hs : list (bs * bs)) : list (bs * bs) -> Prop :=
| pf_disposed : forall ps d, disposed hs d -> names v ps d -> part_fields v hs ps
| pf_none : ~ In (B "content-disposition") (map fst hs) -> part_fields v hs [].
(** A part up to the next delimiter: its header, an empty line, its text and a line end; an empty text may do without
    the line end. *)
Inductive form_part (bd : bs) : list (bs * bs) -> bs -> Prop :=
| fp_text : forall ps hs h e raw v, part_header hs h -> either_end e -> part_says hs raw v -> part_fields v hs ps -> (forall r, raw <> B "--" ++ bd ++ r) -> ~ occurs (line_end ++ B "--" ++ bd) raw ->
    form_part bd ps (h ++ e ++ raw ++ line_end)
| fp_empty : forall ps hs h e, part_header hs h -> either_end e -> part_says hs [] [] -> part_fields [] hs ps -> form_part bd ps (h ++ e).
(** The rest of a form after the delimiter line: a part; another one after the next delimiter, or the final delimiter. *)
Inductive form_parts (bd : bs) (last : bs) : list (bs * bs) -> bs -> Prop :=
| fps_last : forall p s w, form_part bd p s -> tabs_and_spaces w -> form_parts bd last p (s ++ B "--" ++ bd ++ B "--" ++ w ++ last)
| fps_more : forall p s w ps r, form_part bd p s -> tabs_and_spaces w -> form_parts bd last ps r ->
    form_parts bd last (p ++ ps) (s ++ B "--" ++ bd ++ w ++ line_end ++ r).
(** Lines before the first delimiter. *)
Inductive preamble (bd : bs) : bs -> Prop :=
| pa_none : preamble bd []
| pa_line : forall l s, ~ In LF l -> (forall r, l ++ [LF] <> B "--" ++ bd ++ r) -> preamble bd s -> preamble bd (l ++ LF :: s).
(** The fields [ps] as a multipart form; [pre] precedes the first delimiter, [last] follows the final one. *)
Definition multipart_text (bd : bs) (pre last : bs) (ps : list (bs * bs)) (body : bs) : Prop :=
  exists w r, body = pre ++ B "--" ++ bd ++ w ++ line_end ++ r /\ preamble bd pre /\ tabs_and_spaces w /\ form_parts bd last ps r.
(** After the final delimiter and blanks there is something on its line, which may run on into the text read again, or
    the line ends with LF alone. *)
Definition spoilt (last body : bs) : Prop :=
  exists x r, last ++ body = x ++ LF :: r /\ ~ In LF x /\ (match x with [] => True | c :: _ => c <> " "%char /\ c <> TAB end) /\ x <> [CR].
(** Parts, and after the last of them a delimiter followed by [tail]. *)
Inductive form_stops (bd tail : bs) : bs -> Prop :=
| fst_here : forall p s, form_part bd p s -> form_stops bd tail (s ++ B "--" ++ bd ++ tail)
| fst_later : forall p s w r, form_part bd p s -> tabs_and_spaces w -> form_stops bd tail r -> form_stops bd tail (s ++ B "--" ++ bd ++ w ++ line_end ++ r).
Definition stopped_text (bd pre tail body : bs) : Prop :=
  exists w r, body = pre ++ B "--" ++ bd ++ w ++ line_end ++ r /\ preamble bd pre /\ tabs_and_spaces w /\ form_stops bd tail r.
(** The delimiter is no delimiter line and no final one: after it, or after "--", blanks and a line end is all there may be. *)
Definition broken (tail body : bs) : Prop :=
  exists x r, tail ++ body = x ++ LF :: r /\ ~ In LF x /\
    (x = [] \/ (exists c y, x = c :: y /\ (c = CR \/ c = " "%char \/ c = TAB)) \/ exists y, x = B "--" ++ y) /\
    forall w, tabs_and_spaces w -> x <> w ++ [CR] /\ x <> B "--" ++ w ++ [CR].
(** A boundary: not empty, no line ends. *)
Definition good_boundary (bd : bs) : Prop := bd <> [] /\ ~ In CR bd /\ ~ In LF bd.

(** The values [m] of a form with the fields [ps]: each name once, with its values in order. *)
Definition gathers (ps : list (bs * bs)) (m : vals) : Prop :=
  NoDup (map fst m) /\ forall k vs, In (k, vs) m <-> vs = values_of k ps /\ vs <> [].
